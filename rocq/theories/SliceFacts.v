(** * SliceFacts: the slices of a circle (C38, C41). *)
From Coq Require Import ZArith Reals Lra Lia List Bool String Permutation Sorted.
From Verif Require Import Num Py Validation Utilities Objects Slope Planes Analysis
     Dynamic Api RealNum RealFacts ListFacts Spec CircleFacts PlaneFacts SoilFacts.
Import ListNotations.
Local Open Scope R_scope.

(** ** Vocabulary *)
(** Centre, left and right edge of slice [i] of width [w] *)
Definition mid_of (xl w : R) (i : Z) : R := xl + (IZR i + 1 / 2) * w.
Definition edge_of (xl w : R) (i : Z) : R := xl + IZR i * w.
(** Height of the centre above the base of the circle at [x], and the base *)
Definition drop_at (cx r x : R) : R := sqrt (r * r - (x - cx) * (x - cx)).
Definition base_at (cx cy r x : R) : R := cy - drop_at cx r x.
(** Part of a UDL (left, right, magnitude) and of a line load (coord, magnitude)
    between [a] and [b] *)
Definition udl_share (a b : R) (u : R * R * R) : R :=
  snd u * Rmax 0 (Rmin b (snd (fst u)) - Rmax a (fst (fst u))).
Definition ll_share (a b : R) (l : R * R) : R :=
  if Rle_dec a (fst l) then if Rlt_dec (fst l) b then snd l else 0 else 0.
(** Weight of the soil between [yb] and [yt] over the width [w] *)
Definition soil_weight (L : layering) (w yb yt W : R) : Prop :=
  exists uw (pr : Riemann_integrable uw yb yt),
    unit_weight_fun L uw /\ W = w * RiemannInt pr.
(** Water pressure on a base at [yb] under the ground at [yt]: 9.81 times the
    head, times the factor on water pressure where the face is under water.  A
    level of exactly zero counts as no water. *)
Definition water_at (g : geom R) (H : R) (rl : option R) (x yt yb : R) : R :=
  match rl with
  | None => 0
  | Some rl =>
      if Req_EM_T rl 0 then 0
      else 981 / 100 * Rmax 0 (Rmin rl yt - yb) *
           (if Rlt_dec (surface g x) rl then if Rlt_dec x (fst (g_bot g)) then H else 1 else 1)
  end.

Record slice_ok (v : view R) (cx cy r xl w : R) (i : Z) (s : slice R) : Prop := {
  sk_x : sl_x s = mid_of xl w i;
  sk_yb : sl_yb s = base_at cx cy r (mid_of xl w i);
  sk_yt : sl_yt s = Rmax (surface (v_geom v) (mid_of xl w i)) (sl_yb s);
  sk_drop : 0 < drop_at cx r (mid_of xl w i);
  sk_cos : sl_cos s = drop_at cx r (mid_of xl w i) / r;
  sk_sin : sl_sin s = (cx - mid_of xl w i) / r;
  sk_W : exists soil, soil_weight (v_mats v) w (sl_yb s) (sl_yt s) soil /\
         sl_W s = soil
           + rsum (map (udl_share (edge_of xl w i) (edge_of xl w (i + 1))) (v_udls v))
           + rsum (map (ll_share (edge_of xl w i) (edge_of xl w (i + 1))) (v_lls v));
  sk_mat : exists m, layer_at (v_mats v) (sl_yb s) m /\
           sl_c s = m_cohesion m /\ sl_tan s = m_tan_phi m;
  sk_u : sl_u s = water_at (v_geom v) (v_water_H v) (v_water_RL v)
                    (mid_of xl w i) (sl_yt s) (sl_yb s);
}.

(** ** Loads *)
Lemma fold_udl a b (us : list (R * R * R)) : forall W : R,
  fold_left (udl_on a b) us W = W + rsum (map (udl_share a b) us).
Proof.
  induction us as [|[[ul ur] m] us IH]; intros W; cbn [fold_left map rsum]; [ring|].
  rewrite IH. unfold udl_on, udl_share. cbn [fst snd]. unR.
  rewrite (Rmax_comm (_ - _) 0). ring.
Qed.
Lemma fold_ll a b (ls : list (R * R)) : forall W : R,
  fold_left (ll_on a b) ls W = W + rsum (map (ll_share a b) ls).
Proof.
  induction ls as [|[c m] ls IH]; intros W; cbn [fold_left map rsum]; [ring|].
  rewrite IH. unfold ll_on, ll_share. cbn [fst snd]. unR.
  unfold Rleb, Rltb. destruct (Rle_dec a c), (Rlt_dec c b); cbn [andb]; ring.
Qed.

(** Shares of neighbouring strips add up. *)
Lemma udl_share_split a b c u : a <= b <= c ->
  udl_share a c u = udl_share a b u + udl_share b c u.
Proof.
  intros H. unfold udl_share. destruct u as [[ul ur] m]. cbn [fst snd].
  rewrite <- Rmult_plus_distr_l. f_equal. rminmax; lra.
Qed.
Lemma ll_share_split a b c l : a <= b <= c ->
  ll_share a c l = ll_share a b l + ll_share b c l.
Proof.
  intros H. unfold ll_share. destruct l as [x m]. cbn [fst snd].
  destruct (Rle_dec a x), (Rlt_dec x c), (Rlt_dec x b), (Rle_dec b x); lra.
Qed.
Lemma udl_share_nil a u : udl_share a a u = 0.
Proof.
  unfold udl_share. destruct u as [[ul ur] m]. cbn [fst snd].
  replace (Rmax 0 (Rmin a ur - Rmax a ul)) with 0 by (rminmax; lra). ring.
Qed.
Lemma ll_share_nil a l : ll_share a a l = 0.
Proof. unfold ll_share. destruct (Rle_dec a (fst l)), (Rlt_dec (fst l) a); lra. Qed.

Lemma zrange_snoc a k : zrange a (S k) = zrange a k ++ [(a + Z.of_nat k)%Z].
Proof.
  revert a; induction k as [|k IH]; intros a.
  - cbn. f_equal. lia.
  - change (zrange a (S (S k))) with (a :: zrange (a + 1) (S k)). rewrite IH.
    cbn [zrange app]. do 2 f_equal. f_equal. lia.
Qed.
Lemma edge_le xl w i j : 0 <= w -> (i <= j)%Z -> edge_of xl w i <= edge_of xl w j.
Proof.
  intros Hw H. unfold edge_of. apply IZR_le in H.
  apply Rplus_le_compat_l, Rmult_le_compat_r; auto.
Qed.

Lemma shares_add {A} (sh : R -> R -> A -> R) xl w l :
  (forall a b c, a <= b <= c -> sh a c l = sh a b l + sh b c l) ->
  (forall a, sh a a l = 0) -> 0 <= w ->
  forall k, rsum (map (fun i => sh (edge_of xl w i) (edge_of xl w (i + 1)) l) (zrange 0 k)) =
            sh xl (edge_of xl w (Z.of_nat k)) l.
Proof.
  intros SP NI Hw. induction k as [|k IH].
  - cbn [zrange map rsum Z.of_nat]. unfold edge_of. rewrite Rmult_0_l, Rplus_0_r. now rewrite NI.
  - rewrite zrange_snoc, map_app, rsum_app, IH. cbn [map rsum].
    rewrite (SP xl (edge_of xl w (Z.of_nat k)) (edge_of xl w (Z.of_nat (S k)))).
    + rewrite Z.add_0_l. replace (Z.of_nat (S k)) with (Z.of_nat k + 1)%Z by lia. ring.
    + split; [|apply edge_le; auto; lia].
      replace xl with (edge_of xl w 0) at 1 by (unfold edge_of; ring). apply edge_le; auto; lia.
Qed.

(** ** C38: over all slices *)
Lemma udl_once xl xr n u : (0 < n)%Z -> xl <= xr ->
  let w := (xr - xl) / IZR n in
  rsum (map (fun i => udl_share (edge_of xl w i) (edge_of xl w (i + 1)) u) (zrange 0 (Z.to_nat n)))
  = snd u * Rmax 0 (Rmin xr (snd (fst u)) - Rmax xl (fst (fst u))).
Proof.
  intros N L w. assert (0 < IZR n) by now apply IZR_lt.
  rewrite (shares_add udl_share).
  - rewrite Z2Nat.id by lia. unfold edge_of, w.
    replace (xl + IZR n * ((xr - xl) / IZR n)) with xr by (field; lra). reflexivity.
  - intros; now apply udl_share_split.
  - intros; apply udl_share_nil.
  - unfold w. apply Rmult_le_reg_r with (IZR n); auto. unfold Rdiv.
    rewrite Rmult_assoc, Rinv_l; lra.
Qed.
Lemma ll_once xl xr n l : (0 < n)%Z -> xl <= xr ->
  let w := (xr - xl) / IZR n in
  let total := rsum (map (fun i => ll_share (edge_of xl w i) (edge_of xl w (i + 1)) l)
                         (zrange 0 (Z.to_nat n))) in
  (xl <= fst l < xr -> total = snd l) /\ (fst l < xl \/ xr <= fst l -> total = 0).
Proof.
  intros N L w total. assert (0 < IZR n) by now apply IZR_lt.
  assert (E : total = ll_share xl xr l).
  { unfold total. rewrite (shares_add ll_share).
    - rewrite Z2Nat.id by lia. unfold edge_of, w.
      replace (xl + IZR n * ((xr - xl) / IZR n)) with xr by (field; lra). reflexivity.
    - intros; now apply ll_share_split.
    - intros; apply ll_share_nil.
    - unfold w. apply Rmult_le_reg_r with (IZR n); auto. unfold Rdiv.
      rewrite Rmult_assoc, Rinv_l; lra. }
  rewrite E. unfold ll_share.
  destruct (Rle_dec xl (fst l)), (Rlt_dec (fst l) xr); split; intros; lra.
Qed.
(** The same for what the code adds to a slice without soil. *)
Lemma udl_on_once xl xr n u : (0 < n)%Z -> xl <= xr ->
  let w := (xr - xl) / IZR n in
  rsum (map (fun i => udl_on (edge_of xl w i) (edge_of xl w (i + 1)) 0 u) (zrange 0 (Z.to_nat n)))
  = snd u * Rmax 0 (Rmin xr (snd (fst u)) - Rmax xl (fst (fst u))).
Proof.
  intros N L w. rewrite <- (udl_once xl xr n u N L). f_equal. apply map_ext. intros i.
  pose proof (fold_udl (edge_of xl w i) (edge_of xl w (i + 1)) [u] 0) as E.
  cbn [fold_left map rsum] in E. rewrite E. unfold w. lra.
Qed.
Lemma ll_on_once xl xr n l : (0 < n)%Z -> xl <= xr ->
  let w := (xr - xl) / IZR n in
  let total := rsum (map (fun i => ll_on (edge_of xl w i) (edge_of xl w (i + 1)) 0 l)
                         (zrange 0 (Z.to_nat n))) in
  (xl <= fst l < xr -> total = snd l) /\ (fst l < xl \/ xr <= fst l -> total = 0).
Proof.
  intros N L w total.
  replace total with (rsum (map (fun i => ll_share (edge_of xl w i) (edge_of xl w (i + 1)) l)
                         (zrange 0 (Z.to_nat n)))); [exact (ll_once xl xr n l N L)|].
  unfold total. f_equal. apply map_ext. intros i.
  pose proof (fold_ll (edge_of xl w i) (edge_of xl w (i + 1)) [l] 0) as E.
  cbn [fold_left map rsum] in E. rewrite E. lra.
Qed.

(** ** Centres of the slices *)
Lemma zrange_map {B} (f g : Z -> B) a k :
  (forall i, (a <= i < a + Z.of_nat k)%Z -> f i = g i) -> map f (zrange a k) = map g (zrange a k).
Proof.
  intros H. apply map_ext_in. intros i I. apply H. now apply zrange_In in I.
Qed.
Lemma linspace_spec xl xr n : (2 <= n)%Z ->
  let w := (xr - xl) / IZR n in
  linspace (xl + w / 2) (xr - w / 2) n = map (mid_of xl w) (zrange 0 (Z.to_nat n)).
Proof.
  intros N w. assert (HN : 2 <= IZR n) by now apply IZR_le.
  assert (HN1 : IZR (n - 1) = IZR n - 1) by now rewrite minus_IZR.
  unfold linspace. destruct (Z.leb_spec n 0); [lia|]. destruct (Z.eqb_spec n 1); [lia|].
  replace (Z.to_nat n) with (S (Z.to_nat n - 1)) by lia.
  rewrite zrange_snoc, map_app. replace (S (Z.to_nat n - 1) - 1)%nat with (Z.to_nat n - 1)%nat by lia.
  unR.
  assert (X : xr - w / 2 - (xl + w / 2) = w * (IZR n - 1)) by (unfold w; field; lra).
  f_equal.
  - apply zrange_map. intros i I. rewrite ?nz_R. rewrite X, HN1. unfold mid_of. field. lra.
  - cbn [map]. f_equal. unfold mid_of.
    replace (0 + Z.of_nat (Z.to_nat n - 1))%Z with (n - 1)%Z by lia. rewrite HN1. unfold w. field. lra.
Qed.
Lemma mid_between xl xr n i : (0 <= i < n)%Z -> xl < xr ->
  xl < mid_of xl ((xr - xl) / IZR n) i < xr.
Proof.
  intros I L. assert (0 < IZR n) by (apply IZR_lt; lia).
  assert (0 <= IZR i) by (apply IZR_le; lia).
  assert (IZR i + 1 <= IZR n) by (rewrite <- plus_IZR; apply IZR_le; lia).
  unfold mid_of. set (d := xr - xl) in *. assert (0 < d) by (unfold d; lra).
  assert (0 < (IZR i + 1 / 2) * (d / IZR n)).
  { apply Rmult_lt_0_compat; [lra|]. now apply Rdiv_lt_0_compat. }
  assert ((IZR i + 1 / 2) * (d / IZR n) < d).
  { apply Rmult_lt_reg_r with (IZR n); auto.
    replace ((IZR i + 1 / 2) * (d / IZR n) * IZR n) with ((IZR i + 1 / 2) * d) by (field; lra). nra. }
  split; [lra|]. unfold d in *. lra.
Qed.

(** ** One slice *)
Lemma angle_div d h : 0 < h ->
  np_arctan_div d h = atan (d / h) /\
  cos (atan (d / h)) = h / sqrt (d * d + h * h) /\ sin (atan (d / h)) = d / sqrt (d * d + h * h).
Proof.
  intros H. split.
  - unfold np_arctan_div. unR. rewrite (proj2 (Reqb_false h 0)) by lra. reflexivity.
  - pose proof (chord_angle (0, d) (h, 0) H) as [A B]. cbn [fst snd] in A, B.
    rewrite !Rminus_0_r in A, B. auto.
Qed.

Lemma existsb_false {A} (f : A -> bool) l : existsb f l = false <-> forall x, In x l -> f x = false.
Proof.
  split.
  - intros E x I. destruct (f x) eqn:F; auto.
    assert (existsb f l = true) by (apply existsb_exists; eauto). congruence.
  - intros H. induction l as [|x l IH]; cbn; auto. rewrite (H x) by now left.
    apply IH. intros y I. apply H. now right.
Qed.

Section Slices.
  Context (v : view R) (G : good_geom (v_geom v)) (DS : descending (v_mats v)).
  Context (NS : (2 <= v_slices v)%Z) (MA : v_mats v <> []).
  Context (cx cy r : R) (Hr : 0 < r) (a b : R * R).
  Context (CA : on_circle cx cy r a) (CB : on_circle cx cy r b).
  Context (GA : on_ground (v_geom v) a) (GB : on_ground (v_geom v) b).
  Context (AB : fst a + 1 / 100 < fst b).
  Let g := v_geom v.
  Let xl := fst a.
  Let xr := fst b.
  Let n := v_slices v.
  Let w := (xr - xl) / IZR n.

  Lemma inside x : xl < x < xr -> 0 < r * r - (x - cx) * (x - cx).
  Proof.
    unfold xl, xr. intros X. unfold on_circle in CA, CB.
    pose proof (Rle_0_sqr (snd a - cy)) as PA. pose proof (Rle_0_sqr (snd b - cy)) as PB.
    unfold Rsqr in PA, PB. destruct (Rle_dec cx x) as [Q|Q].
    - assert ((x - cx) * (x - cx) < (fst b - cx) * (fst b - cx)) by nra. lra.
    - assert ((x - cx) * (x - cx) < (fst a - cx) * (fst a - cx)) by nra. lra.
  Qed.
  Lemma drop_pos x : xl < x < xr -> 0 < drop_at cx r x.
  Proof. intros X. apply sqrt_lt_R0. now apply inside. Qed.
  Lemma drop_sq x : xl < x < xr -> (cx - x) * (cx - x) + drop_at cx r x * drop_at cx r x = r * r.
  Proof. intros X. unfold drop_at. rewrite sqrt_sqrt by (apply Rlt_le; now apply inside). ring. Qed.
  Lemma angle_at x : xl < x < xr ->
    cos (np_arctan_div (cx - x) (drop_at cx r x)) = drop_at cx r x / r /\
    sin (np_arctan_div (cx - x) (drop_at cx r x)) = (cx - x) / r.
  Proof.
    intros X. destruct (angle_div (cx - x) _ (drop_pos x X)) as (E & C & S).
    rewrite E, C, S, (drop_sq x X), sqrt_square by lra. auto.
  Qed.
  (** the base is never above the model *)
  Lemma base_low x : xl < x < xr -> base_at cx cy r x <= g_ext_h g.
  Proof.
    intros X. pose proof (surface_bounds g G) as SB.
    destruct GA as [_ YA], GB as [_ YB]. fold g in YA, YB.
    pose proof (SB (fst a)) as [_ B1]. pose proof (SB (fst b)) as [_ B2].
    rewrite <- YA in B1. rewrite <- YB in B2. rewrite (gg_crest g G) in B1, B2.
    unfold base_at. pose proof (drop_pos x X) as P. pose proof (drop_sq x X) as Q.
    set (d := drop_at cx r x) in *. unfold on_circle in CA, CB. unfold xl, xr in X.
    destruct (Rle_dec cx x) as [C|C].
    - assert ((snd b - cy) * (snd b - cy) <= d * d) by nra. nra.
    - assert ((snd a - cy) * (snd a - cy) <= d * d) by nra. nra.
  Qed.

  (** where the water table meets the face *)
  Lemma water_factor rl xw x H : external_x g rl = Ok (Some xw) ->
    (if Rltb xw x && Rltb x (fst (g_bot g)) then H else 1) =
    (if Rlt_dec (surface g x) rl then if Rlt_dec x (fst (g_bot g)) then H else 1 else 1).
  Proof.
    destruct G as [T1 T2 T3 T4 T5 T6 T7]. fold g in T1, T2, T3, T4, T5, T6, T7.
    unfold external_x, pydiv. unR.
    assert (SX : x < fst (g_bot g) -> (surface g x < rl <-> 
       (fst (g_top g) <= x /\ snd (g_top g) - (x - fst (g_top g)) * g_gradient g < rl) \/
       (x < fst (g_top g) /\ snd (g_top g) < rl))).
    { intros L. destruct (Rle_dec (fst (g_top g)) x) as [Q|Q].
      - rewrite (surface_face g G x) by (fold g; lra). fold g. split; [left; auto|intros [?|?]; lra].
      - rewrite (surface_crest g G x) by (fold g; lra). fold g. split; [right; split; auto; lra|intros [?|?]; lra]. }
    assert (GN : 0 <= g_gradient g) by (apply grad_nonneg; auto).
    destruct (Rltb rl (snd (g_bot g))) eqn:E1; rbool.
    - intros E. injection E as <-.
      destruct (Rlt_dec (surface g x) rl) as [S|S].
      { exfalso. pose proof (surface_bounds g G x). fold g in H0. lra. }
      unfold Rltb. destruct (Rlt_dec (g_ext_l g) x), (Rlt_dec x (fst (g_bot g))); cbn; lra.
    - destruct (Rltb rl (g_ext_h g)) eqn:E2; rbool.
      + assert (GP : 0 < g_gradient g) by nra.
        rewrite (proj2 (Reqb_false (g_gradient g) 0)) by lra. cbn [rbind].
        intros E. injection E as <-.
        unfold Rltb. destruct (Rlt_dec x (fst (g_bot g))) as [L|L].
        2:{ rewrite andb_false_r. destruct (Rlt_dec (surface g x) rl); auto. }
        rewrite andb_true_r. specialize (SX L).
        assert (K : fst (g_top g) + (snd (g_top g) - rl) / g_gradient g < x <-> surface g x < rl).
        { rewrite SX. set (q := (snd (g_top g) - rl) / g_gradient g).
          assert (Q : q * g_gradient g = snd (g_top g) - rl) by (unfold q; field; lra).
          split.
          - intros W. left. assert (0 < q) by nra. split; [lra|]. nra.
          - intros [[W1 W2]|[W1 W2]]; [|lra]. nra. }
        destruct (Rlt_dec (fst (g_top g) + (snd (g_top g) - rl) / g_gradient g) x),
                 (Rlt_dec (surface g x) rl); tauto.
      + destruct (Reqb rl (snd (g_bot g))) eqn:E3; rbool.
        * intros E. injection E as <-. unfold Rltb.
          destruct (Rlt_dec (surface g x) rl) as [S|S].
          { exfalso. pose proof (surface_bounds g G x). fold g in H0. lra. }
          destruct (Rlt_dec (fst (g_bot g)) x), (Rlt_dec x (fst (g_bot g))); cbn; lra.
        * destruct (Reqb rl (snd (g_top g))) eqn:E4; rbool; [|discriminate].
          intros E. injection E as <-. unfold Rltb.
          assert (GP : 0 < g_gradient g) by nra.
          destruct (Rlt_dec x (fst (g_bot g))) as [L|L].
          2:{ rewrite andb_false_r. destruct (Rlt_dec (surface g x) rl); auto. }
          rewrite andb_true_r. specialize (SX L).
          destruct (Rlt_dec (fst (g_top g)) x) as [W|W], (Rlt_dec (surface g x) rl) as [S|S]; auto.
          -- exfalso. apply S, SX. left. split; [lra|]. nra.
          -- exfalso. apply SX in S as [[S1 S2]|[S1 S2]]; [|lra].
             assert (x = fst (g_top g)) by lra. subst x. lra.
  Qed.

  Lemma grad_pos : snd (g_bot g) < snd (g_top g) -> 0 < g_gradient g.
  Proof.
    intros L. pose proof (grad_nonneg g G) as [P|P]; auto. exfalso.
    pose proof (gg_grad g G) as Q. rewrite <- P in Q. lra.
  Qed.
  Lemma water_total : (forall rl, v_water_RL v = Some rl -> rl <= g_ext_h g) ->
    exists o, water_data v = Ok o.
  Proof.
    intros Wl. unfold water_data, water_level.
    destruct (v_water_RL v) as [rl|] eqn:E; [|eauto]. specialize (Wl rl eq_refl).
    unR. destruct (Reqb rl 0) eqn:E0; rbool; [eauto|].
    unfold external_x, pydiv. unR. destruct G as [T1 T2 T3 T4 T5 T6 T7].
    fold g in T1, T2, T3, T4, T5, T6, T7. fold g.
    destruct (Rltb rl (snd (g_bot g))) eqn:E1; rbool; [cbn; eauto|].
    destruct (Rltb rl (g_ext_h g)) eqn:E2; rbool.
    - assert (GP : 0 < g_gradient g) by (apply grad_pos; lra).
      rewrite (proj2 (Reqb_false (g_gradient g) 0)) by lra. cbn. eauto.
    - destruct (Reqb rl (snd (g_bot g))) eqn:E3; rbool; [cbn; eauto|].
      rewrite (proj2 (Reqb_true rl (snd (g_top g)))) by lra. cbn. eauto.
  Qed.

  Lemma make_slice_ok i o m0 : water_data v = Ok o -> (0 <= i < n)%Z ->
    let x := mid_of xl w i in
    slice_ok v cx cy r xl w i
      (make_slice v o cx cy r w x
         match base_material (v_mats v) (slice_bottom cx cy r x) with
         | Some m => m | None => m0 end).
  Proof.
    intros WD I x.
    assert (X : xl < x < xr) by (apply mid_between; auto; unfold xl, xr; lra).
    assert (BE : cy - sqrt (r * r - (x - cx) * (x - cx)) = base_at cx cy r x) by reflexivity.
    assert (SB : slice_bottom cx cy r x = base_at cx cy r x) by (unfold slice_bottom; unR; reflexivity).
    rewrite SB.
    assert (D : cy - base_at cx cy r x = drop_at cx r x) by (unfold base_at; ring).
    destruct (angle_at x X) as [CO SI].
    pose proof (base_low x X) as BL.
    pose proof (surface_bounds g G x) as [_ SG]. rewrite (gg_crest g G) in SG.
    unfold make_slice. unR. rewrite BE, D, (ground_y_R (v_geom v) G). fold g.
    constructor; cbn [sl_x sl_yt sl_yb sl_cos sl_sin sl_W sl_c sl_tan sl_u]; fold x; auto.
    - now apply drop_pos.
    - destruct (unit_weight_exists _ MA DS) as (uw & U).
      destruct (strip_weight_spec v w (base_at cx cy r x) (Rmax (surface g x) (base_at cx cy r x)) uw)
        as (pr & E); auto.
      { split; [apply Rmax_r|]. apply Rmax_lub; auto. }
      exists (w * RiemannInt pr). split; [exists uw, pr; auto|].
      rewrite fold_ll, fold_udl, E.
      replace (x - w / 2) with (edge_of xl w i) by (unfold x, mid_of, edge_of; field).
      replace (x + w / 2) with (edge_of xl w (i + 1))
        by (unfold x, mid_of, edge_of; rewrite plus_IZR; field).
      reflexivity.
    - destruct (layer_at_exists _ (base_at cx cy r x) MA) as (m & L).
      exists m. split; auto. rewrite (proj2 (base_material_spec _ _ _) L). auto.
    - unfold water_data, water_level in WD. unfold water_at.
      destruct (v_water_RL v) as [rl|].
      2:{ injection WD as <-. unR. reflexivity. }
      unR. unfold Reqb in WD. destruct (Req_EM_T rl 0).
      { injection WD as <-. unR. reflexivity. }
      fold g in WD. destruct (external_x g rl) as [[xw|]|e'] eqn:EX; cbn [rbind] in WD; try discriminate.
      injection WD as <-. unfold water_u. unR.
      rewrite (water_factor rl xw x (v_water_H v) EX), (Rmax_comm _ 0). fold g. ring.
  Qed.

  Lemma Forall2_map_r {A B} (P : A -> B -> Prop) (f : A -> B) l :
    (forall a, In a l -> P a (f a)) -> Forall2 P l (map f l).
  Proof.
    induction l as [|x l IH]; intros H; cbn; constructor.
    - apply H; now left.
    - apply IH. intros; apply H; now right.
  Qed.

  Lemma slices_spec o : water_data v = Ok o ->
    exists sl, slices_of v cx cy r xl xr = Ok (Some (w, sl)) /\
      Forall2 (slice_ok v cx cy r xl w) (zrange 0 (Z.to_nat n)) sl.
  Proof.
    intros WD. unfold slices_of. unR.
    rewrite (proj2 (Rleb_false (xr - xl) (1 / 1000000))) by (unfold xl, xr; lra).
    assert (N0 : 0 < IZR n) by (apply IZR_lt; unfold n; lia).
    unfold pydiv. unR. fold n. rewrite (proj2 (Reqb_false (IZR n) 0)) by lra. cbn [rbind].
    fold w. unfold w. rewrite (linspace_spec xl xr n NS). fold w.
    assert (IN : forall i, In i (zrange 0 (Z.to_nat n)) -> (0 <= i < n)%Z /\ xl < mid_of xl w i < xr).
    { intros i I. apply zrange_In in I. rewrite Z2Nat.id in I by (unfold n; lia).
      split; [lia|]. apply mid_between; [lia|]. unfold xl, xr. lra. }
    rewrite (proj2 (existsb_false _ _)).
    2:{ intros x I. apply in_map_iff in I as (i & <- & I). apply IN in I as [_ I].
        unR. apply Rltb_false. pose proof (inside _ I). lra. }
    rewrite (proj2 (existsb_false _ _)).
    2:{ intros c I. apply in_map_iff in I as (x & <- & I). apply in_map_iff in I as (i & <- & I).
        apply IN in I as [_ I]. unR. apply Reqb_false.
        replace (cy - slice_bottom cx cy r (mid_of xl w i)) with (drop_at cx r (mid_of xl w i))
          by (unfold slice_bottom, drop_at; unR; ring).
        rewrite (proj1 (angle_at _ I)). apply Rgt_not_eq, Rdiv_lt_0_compat; auto. now apply drop_pos. }
    pose proof (fun i m0 => make_slice_ok i o m0 WD) as MK.
    rewrite WD. cbn [rbind]. destruct (v_mats v) as [|[rl m0] L] eqn:EM; [congruence|].
    eexists. split; [reflexivity|]. rewrite map_map. apply Forall2_map_r.
    intros i I. apply MK. now apply IN.
  Qed.
End Slices.

(** ** C38 for the slices of a circle *)
Lemma rsum_swap {A B} (f : A -> B -> R) (l : list A) (l' : list B) :
  rsum (map (fun a => rsum (map (f a) l')) l) = rsum (map (fun b => rsum (map (fun a => f a b) l)) l').
Proof.
  induction l as [|a l IH]; cbn [map rsum].
  - induction l' as [|b l' IH]; cbn [map rsum]; lra.
  - rewrite IH. clear IH. induction l' as [|b l' IH]; cbn [map rsum]; [ring|]. lra.
Qed.
Lemma slices_total v cx cy r xl xr n sl : (0 < n)%Z -> xl <= xr ->
  let w := (xr - xl) / IZR n in
  Forall2 (slice_ok v cx cy r xl w) (zrange 0 (Z.to_nat n)) sl ->
  exists soil, Forall2 (fun s W => soil_weight (v_mats v) w (sl_yb s) (sl_yt s) W) sl soil /\
    rsum (map (@sl_W R) sl) = rsum soil
      + rsum (map (fun u => snd u * Rmax 0 (Rmin xr (snd (fst u)) - Rmax xl (fst (fst u)))) (v_udls v))
      + rsum (map (fun l => if Rle_dec xl (fst l) then if Rlt_dec (fst l) xr then snd l else 0 else 0)
                  (v_lls v)).
Proof.
  intros N L w F.
  assert (G : exists soil, Forall2 (fun s W => soil_weight (v_mats v) w (sl_yb s) (sl_yt s) W) sl soil /\
    rsum (map (@sl_W R) sl) = rsum soil
      + rsum (map (fun i => rsum (map (udl_share (edge_of xl w i) (edge_of xl w (i + 1))) (v_udls v))) (zrange 0 (Z.to_nat n)))
      + rsum (map (fun i => rsum (map (ll_share (edge_of xl w i) (edge_of xl w (i + 1))) (v_lls v))) (zrange 0 (Z.to_nat n)))).
  { clear - F. induction F as [|i s l sl K F (soil & FS & E)].
    - exists []. split; [constructor|]. cbn. lra.
    - destruct (sk_W _ _ _ _ _ _ _ _ K) as (W & SW & EW). exists (W :: soil). split; [constructor; auto|].
      cbn [map rsum]. rewrite E, EW. lra. }
  destruct G as (soil & FS & E). exists soil. split; auto. rewrite E. f_equal; [f_equal|].
  - rewrite rsum_swap. f_equal. apply map_ext. intros u. now apply udl_once.
  - rewrite rsum_swap. f_equal. apply map_ext. intros l.
    destruct (ll_once xl xr n l N L) as (A & B). fold w in A, B.
    destruct (Rle_dec xl (fst l)); [destruct (Rlt_dec (fst l) xr)|].
    + apply A. lra.
    + apply B. lra.
    + apply B. lra.
Qed.
