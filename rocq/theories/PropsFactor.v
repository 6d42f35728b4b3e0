(** * PropsFactor: the ordinary factor of a circle from the stored cross-section to the answer (C113).

    [FR x] is the real number a binary64 number stands for, [valid x] says that [x] is finite and
    in the one form binary64 has for it, [p2 e] is 2^e.  [body_at] is a slice of exact numbers
    (weight, cohesion, friction, water pressure, cosine and sine of the base), [hold_x] and [pull_x]
    its resistance and its pull; all of them are written with the operations of the reals. *)
From Coq Require Import ZArith Reals Lra Lia Bool List String SpecFloat.
From Verif Require Import Num RealNum FloatNum Py Validation Utilities Objects Slope Planes Analysis
     RoundTheory NearFacts SumNear WeightNear FosNear CircleNear WaterNear SliceNear
     SinNear AtanNear AngleNear TanNear FactorNear PropsNear PropsSlice.
Import ListNotations.
Local Open Scope R_scope.

(** Slices whose numbers are near exact ones: how far the factor can be from the exact quotient.
    The slices of [C113_circle_case] meet the hypotheses, by [slice_stands]. *)
Theorem C113_sums : forall (b : float) (sl : list (slice float)) (k : slice float -> body) (o : slice float -> off),
  mild b -> INR (List.length sl) <= 1000000000000 ->
  Forall (fun s => plain_slice s /\ sound (FR b) (k s) /\ stands s (k s) (o s)) sl ->
  let n := INR (List.length sl) in
  let holds := total (fun s => hold_x (FR b) (k s)) sl in
  let pulls := total (fun s => pull_x (k s)) sl in
  let e1 := (2 * n + 9) * p2 (-53) * total (fun s => gross_x (FR b) (k s)) sl +
            2 * total (fun s => hold_off (FR b) (k s) (o s)) sl + 2 * n * p2 (-500) in
  let e2 := (2 * n + 9) * p2 (-53) * total (fun s => pull_gross_x (k s)) sl +
            2 * total (fun s => pull_off (k s) (o s)) sl + 2 * n * p2 (-500) in
  (2 * e2 < pulls -> e1 <= pulls -> holds <= p2 400 * pulls ->
   exists f, ordinary_fos b sl = Some f /\ valid f /\
     Rabs (FR f - holds / pulls) <= 3 * (e1 + holds / pulls * e2) / pulls + p2 (-1075)) /\
  (pulls < - e2 -> ordinary_fos b sl = None).
Proof.
  intros b sl k o Mb N F n holds pulls e1 e2. split; [exact (factor_near b sl k o Mb N F)|exact (factor_none b sl k o N F)].
Qed.
Print Assumptions C113_sums.

(** A circle through the stored cross-section.  [e s] bounds what rounding does to the base of the
    slice [s] as in C111; the base is to lie [16 e] below the centre, no boundary between layers as
    near to it as [e]. *)
Theorem C113_circle : forall (v : view float) water cx cy r (left right : point float) b sl (e : slice float -> R),
  slices_of v cx cy r (fst left) (fst right) = Ok (Some (b, sl)) -> (2 <= v_slices v <= 1000)%Z ->
  plain_view v -> plain_section (v_geom v) -> Forall (fun p => plain_soil (snd p)) (v_mats v) ->
  valid cx -> valid cy -> valid r -> valid (fst left) -> valid (fst right) ->
  0 <= FR cx <= p2 300 -> 0 <= FR cy <= p2 300 -> p2 (-100) <= FR r <= p2 300 ->
  Rabs (FR (fst left)) <= / 8 * p2 300 -> Rabs (FR (fst right)) <= / 8 * p2 300 -> FR b <= p2 100 ->
  water_data v = Ok water -> valid (v_water_H v) -> 0 <= FR (v_water_H v) <= 2 ->
  match water with Some (rl, xw) => valid rl /\ valid xw /\ Rabs (FR rl) <= p2 400 | None => True end ->
  total snd (map soil_of (v_mats v)) <= p2 90 ->
  let k s := body_at v water (FR cx) (FR cy) (FR r) (FR b) (FR (sl_x s))
               (FR (nsub (sl_x s) (ndiv b (nz 2)))) (FR (nadd (sl_x s) (ndiv b (nz 2)))) in
  let o s := off_at v (FR b) (FR r) (e s) (k s) in
  Forall (fun s =>
    let h := depth (FR cx) (FR r) (FR (sl_x s)) in
    (p2 (-24) * FR r + p2 (-53) * Rabs (FR cy) + p2 (-49) * FR (snd (g_top (v_geom v))) <= e s \/
     (0 < h /\ p2 (-48) * (FR r * FR r / h) + p2 (-53) * Rabs (FR cy) + p2 (-49) * FR (snd (g_top (v_geom v))) <= e s)) /\
    16 * e s <= h /\
    (forall rl m, In (rl, m) (v_mats v) -> e s < Rabs (FR rl - (FR cy - h))) /\
    bW (k s) + oW (o s) <= p2 100 /\ bu (k s) + ou (o s) <= p2 100) sl ->
  let n := IZR (v_slices v) in
  let holds := total (fun s => hold_x (FR b) (k s)) sl in
  let pulls := total (fun s => pull_x (k s)) sl in
  let e1 := (2 * n + 9) * p2 (-53) * total (fun s => gross_x (FR b) (k s)) sl +
            2 * total (fun s => hold_off (FR b) (k s) (o s)) sl + 2 * n * p2 (-500) in
  let e2 := (2 * n + 9) * p2 (-53) * total (fun s => pull_gross_x (k s)) sl +
            2 * total (fun s => pull_off (k s) (o s)) sl + 2 * n * p2 (-500) in
  (2 * e2 < pulls -> e1 <= pulls -> holds <= p2 400 * pulls ->
   exists f, ordinary v cx cy r left right = Ok (Some f) /\ valid f /\
     Rabs (FR f - holds / pulls) <= 3 * (e1 + holds / pulls * e2) / pulls + p2 (-1075)) /\
  (pulls < - e2 -> ordinary v cx cy r left right = Ok None).
Proof.
  intros v water cx cy r lp rp b sl e Q N PV PS PM Vcx Vcy Vr V1 V2 Pcx Pcy Br B1 B2 Bb EW VH BH PW HS k o FC n holds pulls e1 e2.
  assert (Bcx : Rabs (FR cx) <= p2 300) by (apply Rabs_le; lra). assert (Bcy : Rabs (FR cy) <= p2 300) by (apply Rabs_le; lra).
  destruct (slice_stands v water cx cy r (fst lp) (fst rp) b sl e Q N PV PS PM Vcx Vcy Vr V1 V2 Bcx Bcy Br B1 B2 Bb EW VH BH PW HS FC) as (Mb & F).
  destruct (wide_vast) as (WF & FV). pose proof wide_big as WB. fold wide in B1, B2.
  destruct (places_near v cx cy r (fst lp) (fst rp) b sl Q N V1 V2 ltac:(lra) ltac:(lra)) as (_ & LN & _).
  assert (NN : INR (List.length sl) = n) by (rewrite INR_IZR_INZ, LN, Z2Nat.id by lia; reflexivity).
  assert (N12 : INR (List.length sl) <= 1000000000000) by (rewrite NN; unfold n; apply IZR_le; lia).
  assert (EO : ordinary v cx cy r lp rp = Ok (ordinary_fos b sl)).
  { assert (AP : forall y, valid y -> 0 <= FR y -> assert_strictly_positive_number (PFloat y) = Ok tt).
    { intros y Vy By. destruct (nz_FR 0 eq_refl) as (V0 & E0). unfold assert_strictly_positive_number. cbn [isinstance_num negb as_num rbind nltb FNum].
      rewrite ltb_FR by assumption. unfold Rltb. rewrite E0. destruct (Rlt_dec (FR y) 0); [lra|reflexivity]. }
    unfold ordinary. rewrite !AP; try assumption; try lra; [|pose proof (p2_pos (-100)); lra].
    cbn [rbind]. rewrite Q. reflexivity. }
  destruct (C113_sums b sl k o Mb N12 F) as (A & B). rewrite NN in A, B. rewrite EO. split.
  - intros H1 H2 H3. destruct (A H1 H2 H3) as (f & E & V & L). exists f. rewrite E. auto.
  - intros H. f_equal. exact (B H).
Qed.
Print Assumptions C113_circle.
(** Two layers, a strip and a line load, water at elevation 8, two slices of 5 m.  The pull is
    273 * 2.5 / 8 exactly; the hypotheses of the theorem hold with [e] a thousandth of a millimetre. *)
Definition firm (uw : Z) : material float :=
  MkMaterial (f_of_Z uw) (f_of_Z 30) (f_of_Z 5) (f_of_Z 4) ""%string ""%string ""%string (ntan (nradians (f_of_Z 30))) None.
Definition two_view : view float :=
  MkView flat_g [(f_of_Z 8, firm 20); (f_of_Z 6, firm 18)] [(f_of_Z 9, f_of_Z 12, f_of_Z 10)] [(f_of_Z 10, f_of_Z 7)]
    (Some (f_of_Z 8)) (f_of_Z 1) (MkLimits (f_of_Z 0) (f_of_Z 20) (f_of_Z 8) (f_of_Z 8)) 2 500 (f_of_Z 1) (f_lit 1 100) 100.
Lemma small_case k o : 0 <= bW k <= 400 -> bc k = 5 -> 0 <= bt k <= 1000 -> 0 <= bu k <= 20 -> 0.9 <= bco k <= 1 -> Rabs (bsi k) <= 1 ->
  0 <= oW o <= / 1000 -> 0 <= ou o <= / 10000 -> 0 <= oa o <= / 1000000 -> 0 <= ot o <= / 1000 ->
  hold_off 5 k o <= 10 /\ pull_off k o <= / 100 /\ hold_x 5 k <= gross_x 5 k <= 1000000 /\ pull_gross_x k <= 400.
Proof.
  intros W C T U Co Si OW Ou Oa Ot. unfold hold_off, pull_off, gross_x, hold_x, pull_gross_x. rewrite C.
  assert (I : 0 < / bco k <= 1.12) by (split; [apply Rinv_0_lt_compat; lra|]; apply Rle_trans with (/ 0.9); [apply Rinv_le_contravar; lra|lra]).
  assert (L : 0 <= base_x 5 k <= 5.6) by (unfold base_x, Rdiv; lra). set (l := base_x 5 k) in *.
  assert (A : 0 <= oa o / bco k <= / 500000).
  { unfold Rdiv. split; [apply Rmult_le_pos; lra|]. apply Rle_trans with (/ 1000000 * 1.12); [apply Rmult_le_compat; lra|lra]. }
  set (a := oa o / bco k) in *.
  assert (LA : 0 <= l * a <= 5.6 * / 500000) by (split; [apply Rmult_le_pos|apply Rmult_le_compat]; lra).
  assert (WA : 0 <= bW k * oa o <= 400 * / 1000000) by (split; [apply Rmult_le_pos|apply Rmult_le_compat]; lra).
  assert (LO : 0 <= l * ou o <= 5.6 * / 10000) by (split; [apply Rmult_le_pos|apply Rmult_le_compat]; lra).
  assert (UL : 0 <= bu k * l <= 20 * 5.6) by (split; [apply Rmult_le_pos|apply Rmult_le_compat]; lra).
  assert (ULA : 0 <= bu k * l * a <= 20 * 5.6 * / 500000) by (split; [apply Rmult_le_pos|apply Rmult_le_compat]; lra).
  assert (WC : 0 <= bW k * bco k <= 400 * 1) by (split; [apply Rmult_le_pos|apply Rmult_le_compat]; lra).
  split; [|split; [|split; [split|]]].
  - assert (Q1 : (oW o + bW k * oa o + 2 * (l * ou o) + 2 * (bu k * l * a)) * (bt k + ot o) <= (/ 200) * 1001) by (apply Rmult_le_compat; lra).
    assert (Q2 : (bW k + bu k * l) * ot o <= 600 * / 1000) by (apply Rmult_le_compat; lra).
    assert (5 * l * a <= 1) by lra. lra.
  - lra.
  - apply Rplus_le_compat_l, Rmult_le_compat_r; [lra|]. apply Rmax_lub; lra.
  - assert (Q : (bW k * bco k + bu k * l) * bt k <= 600 * 1000) by (apply Rmult_le_compat; lra). lra.
  - apply Rle_trans with (400 * 1); [apply Rmult_le_compat; try lra; apply Rabs_pos|lra].
Qed.
Lemma firm_plain uw : plain_soil (firm uw).
Proof.
  unfold plain_soil, firm. cbn [m_cohesion m_friction_angle m_tan_phi].
  destruct (valid_int 5 eq_refl) as (V5 & ->), (valid_int 30 eq_refl) as (V30 & ->).
  assert (5 <= p2 100) by (apply Rle_trans with (p2 3); [rewrite p2_IZR by lia; apply IZR_le; vm_compute; discriminate|apply p2_le; lia]).
  split; [split; [exact V5|lra]|]. split; [split; [exact V30|split; [lra|right; lra]]|reflexivity].
Qed.
Lemma half_places : FR (S754_finite false 8444249301319680 (-50)) = 7.5 /\ FR (S754_finite false 7036874417766400 (-49)) = 12.5.
Proof. rewrite !FR_dyadic by lia. change (2 ^ (- -50))%Z with 1125899906842624%Z. change (2 ^ (- -49))%Z with 562949953421312%Z. lra. Qed.
Ltac settle := repeat match goal with
  | |- context [Rmax ?a ?b] => first [rewrite (Rmax_left a b) by lra | rewrite (Rmax_right a b) by lra]
  | |- context [Rmin ?a ?b] => first [rewrite (Rmin_left a b) by lra | rewrite (Rmin_right a b) by lra]
  | |- context [Rle_dec ?a ?b] => destruct (Rle_dec a b); [first [lra|idtac]|first [lra|idtac]]
  | |- context [Rlt_dec ?a ?b] => destruct (Rlt_dec a b); [first [lra|idtac]|first [lra|idtac]]
  end.
Example C113_circle_case : exists b sl xw,
  let water := Some (f_of_Z 8, xw) in
  let k s := body_at two_view water (FR (f_of_Z 10)) (FR (f_of_Z 14)) (FR (f_of_Z 8)) (FR b) (FR (sl_x s))
               (FR (nsub (sl_x s) (ndiv b (nz 2)))) (FR (nadd (sl_x s) (ndiv b (nz 2)))) in
  let o s := off_at two_view (FR b) (FR (f_of_Z 8)) (/ 1000000) (k s) in
  slices_of two_view (f_of_Z 10) (f_of_Z 14) (f_of_Z 8) (f_of_Z 5) (f_of_Z 15) = Ok (Some (b, sl)) /\ List.length sl = 2%nat /\ FR b = 5 /\
  plain_view two_view /\ plain_section (v_geom two_view) /\ Forall (fun p => plain_soil (snd p)) (v_mats two_view) /\
  water_data two_view = Ok water /\ valid xw /\ total snd (map soil_of (v_mats two_view)) = 38 /\
  Forall (fun s =>
    let h := depth (FR (f_of_Z 10)) (FR (f_of_Z 8)) (FR (sl_x s)) in
    p2 (-24) * FR (f_of_Z 8) + p2 (-53) * Rabs (FR (f_of_Z 14)) + p2 (-49) * FR (snd (g_top (v_geom two_view))) <= / 1000000 /\
    16 * / 1000000 <= h /\
    (forall rl m, In (rl, m) (v_mats two_view) -> / 1000000 < Rabs (FR rl - (FR (f_of_Z 14) - h))) /\
    bW (k s) + oW (o s) <= 1000 /\ bu (k s) + ou (o s) <= 1000) sl /\
  total (fun s => pull_x (k s)) sl = 273 * 2.5 / 8 /\
  2 * ((2 * 2 + 9) * p2 (-53) * total (fun s => pull_gross_x (k s)) sl + 2 * total (fun s => pull_off (k s) (o s)) sl + 2 * 2 * p2 (-500)) < 85 /\
  (2 * 2 + 9) * p2 (-53) * total (fun s => gross_x (FR b) (k s)) sl + 2 * total (fun s => hold_off (FR b) (k s) (o s)) sl + 2 * 2 * p2 (-500) <= 85 /\
  total (fun s => hold_x (FR b) (k s)) sl <= p2 400 * 85 /\
  Forall (fun s => 80 <= bW (k s) <= 400 /\ bc (k s) = 5 /\ bt (k s) = friction (firm 18) /\ 0 <= bu (k s) <= 20 /\ 0.9 <= bco (k s) <= 1 /\
    Rabs (bsi (k s)) = 2.5 / 8 /\ 0 <= oW (o s) <= / 1000 /\ 0 <= ou (o s) <= / 10000 /\ 0 <= oa (o s) <= / 1000000 /\ 0 <= ot (o s) <= / 500000) sl.
Proof.
  set (q := slices_of two_view (f_of_Z 10) (f_of_Z 14) (f_of_Z 8) (f_of_Z 5) (f_of_Z 15)).
  assert (A : match q with
    | Ok (Some (b, [s1; s2])) => b = f_of_Z 5 /\ sl_x s1 = S754_finite false 8444249301319680 (-50) /\ sl_x s2 = S754_finite false 7036874417766400 (-49)
    | _ => False end) by (vm_compute; auto).
  destruct q as [[(b & sl)|]|]; try contradiction. destruct sl as [|s1 [|s2 [|]]]; try contradiction. destruct A as (-> & X1 & X2).
  assert (WD : exists xw, water_data two_view = Ok (Some (f_of_Z 8, xw)) /\ valid xw).
  { destruct (water_data two_view) as [[(rl, xw)|]|] eqn:EX; try (exfalso; revert EX; vm_compute; discriminate).
    assert (R : rl = f_of_Z 8 /\ valid_b xw = true) by (revert EX; vm_compute; intros E; injection E as <- <-; split; reflexivity).
    destruct R as (-> & R). exists xw. split; [reflexivity|]. apply valid_b_ok. exact R. }
  destruct WD as (xw & WD & Vxw). exists (f_of_Z 5), [s1; s2], xw. intros water k o.
  assert (E1 : nsub (sl_x s1) (ndiv (f_of_Z 5) (nz 2)) = f_of_Z 5 /\ nadd (sl_x s1) (ndiv (f_of_Z 5) (nz 2)) = f_of_Z 10) by (rewrite X1; vm_compute; auto).
  assert (E2 : nsub (sl_x s2) (ndiv (f_of_Z 5) (nz 2)) = f_of_Z 10 /\ nadd (sl_x s2) (ndiv (f_of_Z 5) (nz 2)) = f_of_Z 15) by (rewrite X2; vm_compute; auto).
  destruct half_places as (P1 & P2). rewrite <- X1 in P1. rewrite <- X2 in P2.
  assert (HH : 7.59 <= sqrt 57.75 <= 7.6).
  { split; [rewrite <- (sqrt_square 7.59) by lra|rewrite <- (sqrt_square 7.6) by lra]; apply sqrt_le_1_alt; lra. }
  assert (D1 : depth 10 8 7.5 = sqrt 57.75) by (unfold depth; f_equal; lra).
  assert (D2 : depth 10 8 12.5 = sqrt 57.75) by (unfold depth; f_equal; lra).
  assert (G : f_lit 3 4 = S754_finite false 6755399441055744 (-53)) by (vm_compute; reflexivity).
  assert (VG : valid (f_lit 3 4)) by (rewrite G; split; reflexivity).
  assert (EG : FR (f_lit 3 4) = 3 / 4).
  { rewrite G, (FR_dyadic _ (-53)) by lia. change (2 ^ (- -53))%Z with 9007199254740992%Z. lra. }
  set (hh := sqrt 57.75) in *.
  assert (S1 : soil_at two_view (14 - hh) = Some (firm 18)).
  { unfold soil_at, two_view. cbn [v_mats map fst snd layer_at]. rewrite !(fun z p => proj2 (valid_int z p)) by (vm_compute; reflexivity).
    destruct (Rlt_dec 8 (14 - hh)); [lra|reflexivity]. }
  pose proof (friction_pos _ (firm_plain 18)) as FP.
  assert (PR : forall x yt yb, 0 <= Rmax (Rmin 8 yt - yb) 0 <= 2 -> 0 <= pressure (FR (v_water_H two_view)) (FR (f_of_Z 8)) (FR xw) (FR (fst (g_bot (v_geom two_view)))) x yt yb <= 20).
  { intros x yt yb B. unfold pressure, two_view. cbn [v_water_H v_geom flat_g g_bot fst]. rewrite !(fun z p => proj2 (valid_int z p)) by (vm_compute; reflexivity).
    destruct (under_slope _ _ _); lra. }
  assert (K1 : bW (k s1) = 5 * (40 + 18 * (hh - 6)) + 10 /\ bc (k s1) = 5 /\ bt (k s1) = friction (firm 18) /\ 0 <= bu (k s1) <= 20 /\
    bco (k s1) = hh / 8 /\ bsi (k s1) = 2.5 / 8).
  { unfold k, body_at. cbn [bW bc bt bu bco bsi]. rewrite (proj1 E1), (proj2 E1), P1.
    rewrite !(fun z p => proj2 (valid_int z p)) by (vm_compute; reflexivity). rewrite D1, S1. split; [|split; [|split; [|split; [|split]]]].
    - unfold slice_load, ground_of, ground, two_view. cbn [v_geom v_mats v_udls v_lls flat_g g_top g_bot g_gradient g_ext_h fst snd map soil_of firm m_unit_weight column
        total fold_right strip_load line_load load_of line_of]. rewrite EG, !(fun z p => proj2 (valid_int z p)) by (vm_compute; reflexivity).
      settle; lra.
    - cbn [firm m_cohesion]. apply (valid_int 5). reflexivity.
    - reflexivity.
    - unfold water. apply PR. unfold ground_of, ground, two_view. cbn [v_geom flat_g g_top g_bot g_gradient fst snd]. rewrite EG, !(fun z p => proj2 (valid_int z p)) by (vm_compute; reflexivity).
      settle; lra.
    - reflexivity.
    - lra. }
  assert (K2 : bW (k s2) = 5 * (18 * (hh - 7)) + 27 /\ bc (k s2) = 5 /\ bt (k s2) = friction (firm 18) /\ 0 <= bu (k s2) <= 20 /\
    bco (k s2) = hh / 8 /\ bsi (k s2) = - (2.5 / 8)).
  { unfold k, body_at. cbn [bW bc bt bu bco bsi]. rewrite (proj1 E2), (proj2 E2), P2.
    rewrite !(fun z p => proj2 (valid_int z p)) by (vm_compute; reflexivity). rewrite D2, S1. split; [|split; [|split; [|split; [|split]]]].
    - unfold slice_load, ground_of, ground, two_view. cbn [v_geom v_mats v_udls v_lls flat_g g_top g_bot g_gradient g_ext_h fst snd map soil_of firm m_unit_weight column
        total fold_right strip_load line_load load_of line_of]. rewrite EG, !(fun z p => proj2 (valid_int z p)) by (vm_compute; reflexivity).
      settle; lra.
    - cbn [firm m_cohesion]. apply (valid_int 5). reflexivity.
    - reflexivity.
    - unfold water. apply PR. unfold ground_of, ground, two_view. cbn [v_geom flat_g g_top g_bot g_gradient fst snd]. rewrite EG, !(fun z p => proj2 (valid_int z p)) by (vm_compute; reflexivity).
      settle; lra.
    - reflexivity.
    - lra. }
  assert (HV : heaviness (map soil_of (v_mats two_view)) = 38).
  { unfold heaviness, two_view. cbn [v_mats map soil_of fst snd firm m_unit_weight total fold_right]. rewrite !(fun z p => proj2 (valid_int z p)) by (vm_compute; reflexivity). lra. }
  destruct (valid_int 5 eq_refl) as (V5 & F5), (valid_int 8 eq_refl) as (V8 & F8), (valid_int 10 eq_refl) as (V10 & F10), (valid_int 14 eq_refl) as (V14 & F14), (valid_int 6 eq_refl) as (V6 & F6).
  pose proof dust_pos as DP. pose proof dust_small as DS. pose proof u_pos as Up.
  assert (U1 : u <= / 1000000000000) by (rewrite u_val; lra).
  assert (P1000 : 0 < p2 (-1000) <= / 1000000).
  { split; [apply p2_pos|]. apply Rle_trans with dust; [apply p2_le; lia|exact DS]. }
  assert (P59 : 0 < p2 (-59) <= / 1000000).
  { split; [apply p2_pos|]. apply Rle_trans with (p2 (- (20))); [apply p2_le; lia|]. rewrite p2_neg, p2_IZR by lia. apply Rinv_le_contravar; [lra|]. apply IZR_le. vm_compute. discriminate. }
  assert (OO : forall s, 0 <= bW (k s) <= 400 -> 0 <= bt (k s) <= 1000 -> 0 <= bu (k s) <= 20 ->
    0 <= oW (o s) <= / 1000 /\ 0 <= ou (o s) <= / 10000 /\ 0 <= oa (o s) <= / 1000000 /\ 0 <= ot (o s) <= / 500000).
  { intros s W T U. unfold o, off_at. rewrite HV, F5, F8. cbn [oW ou oa ot two_view v_mats v_udls v_lls List.length INR].
    assert (0 <= u * bW (k s) <= / 1000000000000 * 400) by (split; [apply Rmult_le_pos|apply Rmult_le_compat]; lra).
    assert (0 <= u * bt (k s) <= / 1000000000000 * 1000) by (split; [apply Rmult_le_pos|apply Rmult_le_compat]; lra).
    assert (0 <= u * bu (k s) <= / 1000000000000 * 20) by (split; [apply Rmult_le_pos|apply Rmult_le_compat]; lra). lra. }
  destruct K1 as (W1 & C1 & T1 & U1' & Co1 & Si1), K2 as (W2 & C2 & T2 & U2' & Co2 & Si2).
  pose proof (OO s1 ltac:(lra) ltac:(lra) ltac:(lra)) as (OW1 & Ou1 & Oa1 & Ot1). pose proof (OO s2 ltac:(lra) ltac:(lra) ltac:(lra)) as (OW2 & Ou2 & Oa2 & Ot2).
  destruct (small_case (k s1) (o s1)) as (R1 & R2 & R3 & R4); try assumption; try lra; [rewrite Si1, Rabs_right; lra|].
  destruct (small_case (k s2) (o s2)) as (Q1 & Q2 & Q3 & Q4); try assumption; try lra; [rewrite Si2, Rabs_left; lra|].
  assert (PS2 : total (fun s => pull_x (k s)) [s1; s2] = 273 * 2.5 / 8).
  { cbn [total fold_right]. unfold pull_x. rewrite W1, W2, Si1, Si2. lra. }
  split; [reflexivity|]. split; [reflexivity|]. split; [exact F5|]. split.
  { pose proof C106_weight_case as (PV & _). unfold plain_view, near_view, two_view in *. cbn [v_geom v_mats v_udls v_lls List.length] in *.
    destruct PV as (A1 & A2 & A3). split; [exact A1|]. split; [|exact A3]. inversion_clear A2 as [|? ? Z1 Z2]. inversion_clear Z2 as [|? ? Z3 Z4].
    constructor; [exact Z1|]. constructor; [exact Z3|constructor]. }
  split; [exact (proj1 (proj2 (proj2 C111_slice_case)))|]. split; [constructor; [apply firm_plain|constructor; [apply firm_plain|constructor]]|]. split; [exact WD|]. split; [exact Vxw|]. split; [exact HV|].
  split.
  { assert (EE : p2 (-24) * FR (f_of_Z 8) + p2 (-53) * Rabs (FR (f_of_Z 14)) + p2 (-49) * FR (snd (g_top (v_geom two_view))) <= / 1000000).
    { destruct C111_slice_case as (_ & _ & _ & _ & _ & _ & _ & _ & _ & EE & _). rewrite F8, F14. cbn [two_view v_geom flat_g g_top snd]. rewrite F10. exact EE. }
    assert (BD : forall rl m, In (rl, m) (v_mats two_view) -> / 1000000 < Rabs (FR rl - (14 - hh))).
    { intros rl m I. cbn [two_view v_mats] in I. destruct I as [I|[I|[]]]; apply (f_equal fst) in I; cbn [fst] in I; subst rl; [rewrite F8, Rabs_right|rewrite F6, Rabs_left]; lra. }
    assert (PX : forall s, depth 10 8 (FR (sl_x s)) = hh -> bW (k s) + oW (o s) <= 1000 /\ bu (k s) + ou (o s) <= 1000 ->
      let h := depth (FR (f_of_Z 10)) (FR (f_of_Z 8)) (FR (sl_x s)) in
      p2 (-24) * FR (f_of_Z 8) + p2 (-53) * Rabs (FR (f_of_Z 14)) + p2 (-49) * FR (snd (g_top (v_geom two_view))) <= / 1000000 /\
      16 * / 1000000 <= h /\ (forall rl m, In (rl, m) (v_mats two_view) -> / 1000000 < Rabs (FR rl - (FR (f_of_Z 14) - h))) /\
      bW (k s) + oW (o s) <= 1000 /\ bu (k s) + ou (o s) <= 1000).
    { intros s Ds Bs h. split; [exact EE|]. unfold h. rewrite F10, F8, F14, Ds. split; [lra|]. split; [exact BD|exact Bs]. }
    constructor; [|constructor; [|constructor]]; apply PX; rewrite ?P1, ?P2; try assumption; split; lra. }
  split; [exact PS2|]. cbn [total fold_right]. rewrite F5. pose proof (p2_pos (-500)) as P500. change (p2 (-500)) with dust in *. change (p2 (-53)) with u.
  assert (UM : forall t, t <= 2000000 -> 13 * u * t <= 1) by (intros t Ht; apply Rle_trans with (13 * u * 2000000); [apply Rmult_le_compat_l; lra|lra]).
  pose proof (UM (pull_gross_x (k s1) + (pull_gross_x (k s2) + 0)) ltac:(lra)). pose proof (UM (gross_x 5 (k s1) + (gross_x 5 (k s2) + 0)) ltac:(lra)).
  assert (1000000 <= p2 400) by (apply Rle_trans with (p2 20); [rewrite p2_IZR by lia; apply IZR_le; vm_compute; discriminate|apply p2_le; lia]).
  assert (A1 : Rabs (bsi (k s1)) = 2.5 / 8) by (rewrite Si1, Rabs_right; lra). assert (A2 : Rabs (bsi (k s2)) = 2.5 / 8) by (rewrite Si2, Rabs_left; lra).
  split; [lra|]. split; [lra|]. split; [lra|].
  constructor; [|constructor; [|constructor]]; (split; [lra|]; split; [assumption|]; split; [assumption|]; split; [assumption|]; split; [lra|]; split; [assumption|]; split; [assumption|]; split; [assumption|]; split; assumption).
Qed.
