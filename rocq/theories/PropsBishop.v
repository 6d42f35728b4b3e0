(** * PropsBishop: the Bishop factor of a circle from the stored cross-section to the answer (C114).

    [FR x] is the real number a binary64 number stands for, [valid x] says that [x] is finite and
    in the one form binary64 has for it, [p2 e] is 2^e.  [body_at] is a slice of exact numbers as in
    C113, [turn_x] its term of the exact iteration and [pull_x] its pull, both written with the
    operations of the reals. *)
From Coq Require Import ZArith Reals Lra Lia Bool List String SpecFloat.
From Verif Require Import Num RealNum FloatNum Py Validation Utilities Objects Slope Planes Analysis
     RoundTheory NearFacts SumNear WeightNear FosNear CircleNear BishopNear WaterNear SliceNear
     SinNear AtanNear AngleNear TanNear FactorNear TurnNear PropsNear PropsTurn PropsSlice PropsFactor.
Import ListNotations.
Local Open Scope R_scope.

(** ** The answer is the value of the last iteration on the slices of the circle *)
Theorem C114_answer : forall (v : view float) cx cy r F, bishop v cx cy r = Ok (Some F) -> (0 < v_max_iterations v)%Z ->
  exists il left right b sl p0 p,
    circle_external (v_geom v) cx cy r = Ok il /\ first_two il = Some (left, right) /\
    slices_of v cx cy r (fst left) (fst right) = Ok (Some (b, sl)) /\ ordinary v cx cy r left right = Ok (Some p0) /\
    bishop_step b sl p = Ok (Some F) /\
    (nltb (nabs (nsub F p)) (v_tolerance v) = true \/
     exists ps, Z.of_nat (List.length ps) = v_max_iterations v /\
       nth_error (p0 :: ps) (List.length ps - 1) = Some p /\ nth_error (p0 :: ps) (List.length ps) = Some F /\
       forall i x y, nth_error (p0 :: ps) i = Some x -> nth_error (p0 :: ps) (S i) = Some y ->
         bishop_step b sl x = Ok (Some y) /\ nltb (nabs (nsub y x)) (v_tolerance v) = false).
Proof.
  intros v cx cy r F E K. unfold bishop in E. destruct (circle_external (v_geom v) cx cy r) as [il|] eqn:E1; cbn [rbind] in E; [|discriminate E].
  destruct (first_two il) as [(l & rt)|] eqn:E2; [|discriminate E].
  destruct (ordinary v cx cy r l rt) as [[p0|]|] eqn:E3; cbn [rbind] in E; try discriminate E.
  destruct (slices_of v cx cy r (fst l) (fst rt)) as [[(b & sl)|]|] eqn:E4; cbn [rbind] in E; try discriminate E.
  destruct (loop_last b (v_tolerance v) sl _ p0 F E ltac:(lia)) as (p & S1 & S2). exists il, l, rt, b, sl, p0, p.
  do 5 (split; [assumption || reflexivity|]). destruct S2 as [S2|(ps & L & N1 & N2 & A)]; [now left|right]. exists ps.
  split; [rewrite L; lia|]. rewrite L. auto.
Qed.
Print Assumptions C114_answer.
Example C114_answer_case : exists F, bishop two_view (f_of_Z 12) (f_lit 29 2) (f_lit 15 2) = Ok (Some F) /\ v_max_iterations two_view = 100%Z.
Proof.
  destruct (bishop two_view (f_of_Z 12) (f_lit 29 2) (f_lit 15 2)) as [[F|]|] eqn:E; [exists F; split; reflexivity| |]; exfalso; revert E; vm_compute; discriminate.
Qed.

(** ** One iteration on slices whose numbers are near exact ones *)
Theorem C114_sums : forall (b p : float) (sl : list (slice float)) (k : slice float -> body) (o : slice float -> off),
  mild b -> fair_p p -> INR (List.length sl) <= 1000000000000 ->
  Forall (fun s => plain_slice s /\ sound (FR b) (k s) /\ stands s (k s) (o s)) sl ->
  Forall (fun s => firm_den (FR p) (k s) (o s)) sl ->
  let n := INR (List.length sl) in
  let holds := total (fun s => turn_x (FR b) (FR p) (k s)) sl in
  let pulls := total (fun s => pull_x (k s)) sl in
  let e1 := (2 * n + 30) * p2 (-53) * total (fun s => turn_gross_x (FR b) (FR p) (k s) (o s)) sl +
            total (fun s => turn_off (FR b) (FR p) (k s) (o s)) sl + 2 * n * p2 (-500) in
  let e2 := (2 * n + 9) * p2 (-53) * total (fun s => pull_gross_x (k s)) sl +
            2 * total (fun s => pull_off (k s) (o s)) sl + 2 * n * p2 (-500) in
  (2 * e2 < pulls -> e1 <= pulls -> e1 <= holds -> holds <= p2 400 * pulls ->
   exists f, bishop_step b sl p = Ok (Some f) /\ valid f /\
     Rabs (FR f - holds / pulls) <= 3 * (e1 + holds / pulls * e2) / pulls + p2 (-1075)) /\
  (pulls < - e2 \/ holds < - e1 -> bishop_step b sl p = Ok None).
Proof.
  intros b p sl k o Mb Fp N F FD n holds pulls e1 e2. split; [exact (turn_step b p sl k o Mb Fp N F FD)|exact (turn_none b p sl k o Mb Fp N F FD)].
Qed.
Print Assumptions C114_sums.

(** ** An iteration that stops is near a solution of the exact equation

    [q] is a solution of the exact equation; [m] bounds what the exact step makes of the distance
    between [p] and [q].  If it is a contraction, the answer is within the rounding error and the
    tolerance, divided by [1 - m], of the solution. *)
Theorem C114_root : forall (b p tol F : float) (sl : list (slice float)) (k : slice float -> body) (o : slice float -> off) (q : R),
  mild b -> fair_p p -> INR (List.length sl) <= 1000000000000 ->
  Forall (fun s => plain_slice s /\ sound (FR b) (k s) /\ stands s (k s) (o s)) sl ->
  Forall (fun s => firm_den (FR p) (k s) (o s)) sl ->
  let n := INR (List.length sl) in
  let holds := total (fun s => turn_x (FR b) (FR p) (k s)) sl in
  let pulls := total (fun s => pull_x (k s)) sl in
  let e1 := (2 * n + 30) * p2 (-53) * total (fun s => turn_gross_x (FR b) (FR p) (k s) (o s)) sl +
            total (fun s => turn_off (FR b) (FR p) (k s) (o s)) sl + 2 * n * p2 (-500) in
  let e2 := (2 * n + 9) * p2 (-53) * total (fun s => pull_gross_x (k s)) sl +
            2 * total (fun s => pull_off (k s) (o s)) sl + 2 * n * p2 (-500) in
  2 * e2 < pulls -> e1 <= pulls -> e1 <= holds -> holds <= p2 400 * pulls ->
  bishop_step b sl p = Ok (Some F) -> fair_p F -> valid tol -> nltb (nabs (nsub F p)) tol = true ->
  0 < q -> Forall (fun s => den_x q (k s) <> 0) sl -> total (fun s => turn_x (FR b) q (k s)) sl = q * pulls ->
  let m := total (fun s => Rabs (num_x (FR b) (k s) * (bsi (k s) * bt (k s))) /
                    (Rabs (FR p * den_x (FR p) (k s)) * Rabs (q * den_x q (k s)))) sl / pulls in
  m < 1 ->
  Rabs (FR F - q) <= (3 * (e1 + holds / pulls * e2) / pulls + p2 (-1075) + m * ((1 + 2 * p2 (-53)) * FR tol)) / (1 - m).
Proof.
  intros b p tol F sl k o q Mb Fp N FS FD n holds pulls e1 e2 H1 H2 H3 H4 S FF Vt St Q0 QD QE m M1.
  destruct (turn_step b p sl k o Mb Fp N FS FD H1 H2 H3 H4) as (f & S' & V & E). rewrite S in S'. injection S' as <-.
  assert (P0 : 0 < pulls).
  { destruct (pull_sums b sl k o N FS) as (_ & P0). change (0 <= e2) in P0. lra. }
  assert (TM : forall f, total f (map k sl) = total (fun s => f (k s)) sl).
  { intros f. clear. induction sl as [|s l IH]; [reflexivity|]. cbn [map total fold_right]. f_equal. exact IH. }
  destruct Fp as (Vp & Bp), FF as (VF & BF). pose proof (p2_pos (-100)) as P100.
  assert (LF : p2 100 <= fair) by (apply p2_le; lia).
  assert (ST : Rabs (FR F - FR p) <= (1 + 2 * p2 (-53)) * FR tol).
  { apply stop_near; try assumption; rewrite Rabs_right; lra. }
  assert (MS : m * pulls = total (slope_x (FR b) (FR p) q) (map k sl)) by (rewrite TM; unfold m, slope_x; field; lra).
  assert (MQ : total (slope_x (FR b) (FR p) q) (map k sl) / pulls = m) by (rewrite <- MS; field; lra).
  rewrite <- MQ. apply (root_near (FR b) (FR p) q (FR F) (map k sl) pulls); try assumption; try lra.
  - apply Forall_map. rewrite Forall_forall in *. intros s I. destruct (FD s I) as (_ & _ & F3). pose proof (p2_pos (-79)). split; [|exact (QD s I)].
    intros Z. rewrite Z, Rabs_R0 in F3. lra.
  - rewrite TM. exact QE.
  - rewrite TM. exact E.
  - pose proof (Rabs_pos (FR F - FR p)). lra.
  - rewrite <- MS. apply Rlt_le_trans with (1 * pulls); [apply Rmult_lt_compat_r; assumption|lra].
Qed.
Print Assumptions C114_root.
(** one slice of weight 64: the exact equation has the solution 3/4, and the program steps from 3/4 to 3/4 *)
Example C114_root_case : let sl := [near_slice 64 down] in
  let k (s : slice float) := Body 64 5 (/ 2) 2 (/ 2) (3 / 4) in let o (s : slice float) := Off 0 0 0 0 in
  mild (f_of_Z 1) /\ fair_p down /\ Forall (fun s => plain_slice s /\ sound (FR (f_of_Z 1)) (k s) /\ stands s (k s) (o s)) sl /\
  Forall (fun s => firm_den (FR down) (k s) (o s)) sl /\ total (fun s => turn_x (FR (f_of_Z 1)) (3 / 4) (k s)) sl = 3 / 4 * 48 /\
  total (fun s => pull_x (k s)) sl = 48 /\
  2 * ((2 * 1 + 9) * p2 (-53) * total (fun s => pull_gross_x (k s)) sl + 2 * total (fun s => pull_off (k s) (o s)) sl + 2 * 1 * p2 (-500)) < 48 /\
  (2 * 1 + 30) * p2 (-53) * total (fun s => turn_gross_x (FR (f_of_Z 1)) (FR down) (k s) (o s)) sl +
    total (fun s => turn_off (FR (f_of_Z 1)) (FR down) (k s) (o s)) sl + 2 * 1 * p2 (-500) <= 36 /\
  bishop_step (f_of_Z 1) sl down = Ok (Some down) /\ nltb (nabs (nsub down down)) (f_lit 1 100) = true /\
  total (fun s => Rabs (num_x (FR (f_of_Z 1)) (k s) * (bsi (k s) * bt (k s))) /
                    (Rabs (FR down * den_x (FR down) (k s)) * Rabs (3 / 4 * den_x (3 / 4) (k s)))) sl / 48 = / 2 /\
  total pull [near_slice 40 back] < 0 /\ bishop_step (f_of_Z 1) [near_slice 40 back] (f_of_Z 1) = Ok None.
Proof.
  intros sl k o. destruct half_FR as (Vh & Eh). pose proof down_FR as Ed. pose proof back_FR as Eb.
  assert (E1 : FR (f_of_Z 1) = 1) by (apply valid_int; reflexivity). rewrite E1, Ed.
  assert (E64 : FR (f_of_Z 64) = 64) by (apply valid_int; reflexivity). assert (E5 : FR (f_of_Z 5) = 5) by (apply valid_int; reflexivity).
  assert (E2 : FR (f_of_Z 2) = 2) by (apply valid_int; reflexivity). assert (E40 : FR (f_of_Z 40) = 40) by (apply valid_int; reflexivity).
  assert (Vd : valid down) by (split; reflexivity).
  assert (A1 : Rabs (3 / 4) = 3 / 4) by (apply Rabs_right; lra).
  assert (Dx : den_x (3 / 4) (k (near_slice 64 down)) = 1) by (unfold den_x, k; cbn [bco bsi bt]; lra).
  assert (Dg : den_gross_x (3 / 4) (k (near_slice 64 down)) = 1) by (unfold den_gross_x, k; cbn [bco bsi bt]; rewrite A1; lra).
  assert (Nx : num_x 1 (k (near_slice 64 down)) = 36) by (unfold num_x, k; cbn [bW bc bt bu]; lra).
  assert (Ng : num_gross_x 1 (k (near_slice 64 down)) = 38) by (unfold num_gross_x, k; cbn [bW bc bt bu]; lra).
  assert (No : num_off 1 (k (near_slice 64 down)) (o (near_slice 64 down)) = 0) by (unfold num_off, k, o; cbn [bW bc bt bu oW ou oa ot]; lra).
  assert (Do : den_off (3 / 4) (k (near_slice 64 down)) (o (near_slice 64 down)) = 0) by (unfold den_off, k, o; cbn [bW bc bt bu oW ou oa ot]; lra).
  assert (Mb : mild (f_of_Z 1)) by (apply mild_int; lia).
  pose proof u_pos as U. assert (u <= / 1000000) by (rewrite u_val; lra). pose proof dust_pos. pose proof dust_small.
  change (p2 (-53)) with u. change (p2 (-500)) with dust.
  split; [exact Mb|]. split.
  { split; [exact Vd|]. rewrite Ed. split.
    - apply Rle_trans with (p2 (-1)); [apply p2_le; lia|]. change (-1)%Z with (- (1))%Z. rewrite p2_neg, p2_1. lra.
    - apply Rle_trans with (p2 0); [rewrite p2_0; lra|apply p2_le; lia]. }
  split.
  { constructor; [|constructor]. split; [apply near_plain; [lia|exact Vd|rewrite Ed, A1; lra]|].
    unfold sound, stands, k, o, near_slice. cbn [bW bc bt bu bco bsi oW ou oa ot sl_W sl_c sl_tan sl_u sl_cos sl_sin].
    rewrite E64, E5, Eh, E2, Ed, A1, !Rminus_eq_0, Rabs_R0. split; [|split; [|split; [|split; [|split; [|split; [|split]]]]]]; lra. }
  split.
  { constructor; [|constructor]. unfold firm_den. rewrite Dx, Dg, Do, Rabs_R1. split; [lra|]. split.
    - replace (p2 (-47)) with (64 * u) by (unfold u; replace (-47)%Z with (6 + -53)%Z by lia; rewrite p2_add; f_equal; rewrite p2_IZR by lia; reflexivity). lra.
    - apply Rle_trans with (p2 0); [apply p2_le; lia|rewrite p2_0; lra]. }
  unfold sl. cbn [total fold_right]. unfold turn_off, turn_gross_x, turn_x. rewrite ?Dx, ?Dg, ?Nx, ?Ng, ?No, ?Do.
  unfold pull_x, pull_gross_x, pull_off, k, o, pull, near_slice. cbn [bW bc bt bu bco bsi oW ou oa ot sl_W sl_c sl_tan sl_u sl_cos sl_sin]. rewrite A1, E40, Eb.
  split; [lra|]. split; [lra|]. split; [lra|]. split; [rewrite Rabs_R1; lra|]. split; [vm_compute; reflexivity|]. split; [vm_compute; reflexivity|].
  split; [|split; [lra|vm_compute; reflexivity]].
  rewrite !Rmult_1_r, !A1, Rabs_right by lra. lra.
Qed.

(** ** One iteration on the slices of a circle through the stored cross-section

    [e s] bounds what rounding does to the base of the slice [s] as in C111 and C113. *)
Theorem C114_circle : forall (v : view float) water cx cy r x1 x2 b sl (e : slice float -> R) p,
  slices_of v cx cy r x1 x2 = Ok (Some (b, sl)) -> (2 <= v_slices v <= 1000)%Z ->
  plain_view v -> plain_section (v_geom v) -> Forall (fun p => plain_soil (snd p)) (v_mats v) ->
  valid cx -> valid cy -> valid r -> valid x1 -> valid x2 ->
  Rabs (FR cx) <= p2 300 -> Rabs (FR cy) <= p2 300 -> p2 (-100) <= FR r <= p2 300 ->
  Rabs (FR x1) <= / 8 * p2 300 -> Rabs (FR x2) <= / 8 * p2 300 -> FR b <= p2 100 ->
  water_data v = Ok water -> valid (v_water_H v) -> 0 <= FR (v_water_H v) <= 2 ->
  match water with Some (rl, xw) => valid rl /\ valid xw /\ Rabs (FR rl) <= p2 400 | None => True end ->
  total snd (map soil_of (v_mats v)) <= p2 90 ->
  let k s := body_at v water (FR cx) (FR cy) (FR r) (FR b) (FR (sl_x s))
               (FR (nsub (sl_x s) (ndiv b (nz 2)))) (FR (nadd (sl_x s) (ndiv b (nz 2)))) in
  let o s := off_at v (FR b) (FR r) (e s) (k s) in
  Forall (fun s =>
    let h := depth (FR cx) (FR r) (FR (sl_x s)) in
    (p2 (-24) * FR r + p2 (-53) * Rabs (FR cy) + p2 (-49) * FR (snd (g_top (v_geom v))) <= e s \/
     (0 < h /\ p2 (-48) * (FR r * FR r / h) + p2 (-53) * Rabs (FR cy) + p2 (-49) * FR (snd (g_top (v_geom v))) <= e s)) /\
    16 * e s <= h /\
    (forall rl m, In (rl, m) (v_mats v) -> e s < Rabs (FR rl - (FR cy - h))) /\
    bW (k s) + oW (o s) <= p2 100 /\ bu (k s) + ou (o s) <= p2 100) sl ->
  fair_p p -> Forall (fun s => firm_den (FR p) (k s) (o s)) sl ->
  let n := IZR (v_slices v) in
  let holds := total (fun s => turn_x (FR b) (FR p) (k s)) sl in
  let pulls := total (fun s => pull_x (k s)) sl in
  let e1 := (2 * n + 30) * p2 (-53) * total (fun s => turn_gross_x (FR b) (FR p) (k s) (o s)) sl +
            total (fun s => turn_off (FR b) (FR p) (k s) (o s)) sl + 2 * n * p2 (-500) in
  let e2 := (2 * n + 9) * p2 (-53) * total (fun s => pull_gross_x (k s)) sl +
            2 * total (fun s => pull_off (k s) (o s)) sl + 2 * n * p2 (-500) in
  (2 * e2 < pulls -> e1 <= pulls -> e1 <= holds -> holds <= p2 400 * pulls ->
   exists f, bishop_step b sl p = Ok (Some f) /\ valid f /\
     Rabs (FR f - holds / pulls) <= 3 * (e1 + holds / pulls * e2) / pulls + p2 (-1075)) /\
  (pulls < - e2 \/ holds < - e1 -> bishop_step b sl p = Ok None).
Proof.
  intros v water cx cy r x1 x2 b sl e p Q N PV PS PM Vcx Vcy Vr V1 V2 Bcx Bcy Br B1 B2 Bb EW VH BH PW HS k o FC Fp FD n holds pulls e1 e2.
  destruct (slice_stands v water cx cy r x1 x2 b sl e Q N PV PS PM Vcx Vcy Vr V1 V2 Bcx Bcy Br B1 B2 Bb EW VH BH PW HS FC) as (Mb & F).
  destruct (wide_vast) as (WF & FV). pose proof wide_big as WB. fold wide in B1, B2.
  destruct (places_near v cx cy r x1 x2 b sl Q N V1 V2 ltac:(lra) ltac:(lra)) as (_ & LN & _).
  assert (NN : INR (List.length sl) = n) by (rewrite INR_IZR_INZ, LN, Z2Nat.id by lia; reflexivity).
  assert (N12 : INR (List.length sl) <= 1000000000000) by (rewrite NN; unfold n; apply IZR_le; lia).
  pose proof (C114_sums b p sl k o Mb Fp N12 F FD) as A. rewrite NN in A. exact A.
Qed.
Print Assumptions C114_circle.
Lemma tan_third : 0 <= friction (firm 18) <= 1.
Proof.
  split; [apply (friction_pos _ (firm_plain 18))|]. unfold friction, firm. cbn [m_friction_angle]. rewrite (proj2 (valid_int 30 eq_refl)).
  pose proof PI_RGT_0. rewrite <- tan_PI4. left. apply tan_increasing; lra.
Qed.
(** the iteration from 1 on the slices of [C113_circle_case] *)
Example C114_circle_case : exists b sl xw,
  let water := Some (f_of_Z 8, xw) in
  let k s := body_at two_view water (FR (f_of_Z 10)) (FR (f_of_Z 14)) (FR (f_of_Z 8)) (FR b) (FR (sl_x s))
               (FR (nsub (sl_x s) (ndiv b (nz 2)))) (FR (nadd (sl_x s) (ndiv b (nz 2)))) in
  let o s := off_at two_view (FR b) (FR (f_of_Z 8)) (/ 1000000) (k s) in
  slices_of two_view (f_of_Z 10) (f_of_Z 14) (f_of_Z 8) (f_of_Z 5) (f_of_Z 15) = Ok (Some (b, sl)) /\
  fair_p (f_of_Z 1) /\ Forall (fun s => firm_den (FR (f_of_Z 1)) (k s) (o s)) sl /\
  let holds := total (fun s => turn_x (FR b) (FR (f_of_Z 1)) (k s)) sl in
  let pulls := total (fun s => pull_x (k s)) sl in
  let e1 := (2 * 2 + 30) * p2 (-53) * total (fun s => turn_gross_x (FR b) (FR (f_of_Z 1)) (k s) (o s)) sl +
            total (fun s => turn_off (FR b) (FR (f_of_Z 1)) (k s) (o s)) sl + 2 * 2 * p2 (-500) in
  let e2 := (2 * 2 + 9) * p2 (-53) * total (fun s => pull_gross_x (k s)) sl +
            2 * total (fun s => pull_off (k s) (o s)) sl + 2 * 2 * p2 (-500) in
  2 * e2 < pulls /\ e1 <= pulls /\ e1 <= holds /\ holds <= p2 400 * pulls.
Proof.
  destruct C113_circle_case as (b & sl & xw & A). exists b, sl, xw. intros water k o. cbv zeta in A. fold water in A.
  destruct A as (SL & LN & EB & _ & _ & _ & _ & _ & _ & _ & EP & E2 & _ & _ & FB).
  change (Forall (fun s => 80 <= bW (k s) <= 400 /\ bc (k s) = 5 /\ bt (k s) = friction (firm 18) /\ 0 <= bu (k s) <= 20 /\ 0.9 <= bco (k s) <= 1 /\
    Rabs (bsi (k s)) = 2.5 / 8 /\ 0 <= oW (o s) <= / 1000 /\ 0 <= ou (o s) <= / 10000 /\ 0 <= oa (o s) <= / 1000000 /\ 0 <= ot (o s) <= / 500000) sl) in FB.
  change (total (fun s => pull_x (k s)) sl = 273 * 2.5 / 8) in EP.
  change (2 * ((2 * 2 + 9) * p2 (-53) * total (fun s => pull_gross_x (k s)) sl + 2 * total (fun s => pull_off (k s) (o s)) sl + 2 * 2 * p2 (-500)) < 85) in E2.
  split; [exact SL|]. split; [apply fair_int; lia|]. pose proof tan_third as TT.
  assert (F1 : FR (f_of_Z 1) = 1) by (apply valid_int; reflexivity).
  pose proof u_pos as U. assert (US : u <= / 1000000000) by (rewrite u_val; lra). pose proof dust_pos as DP. pose proof dust_small as DS.
  assert (Q : forall s, 80 <= bW (k s) <= 400 /\ bc (k s) = 5 /\ bt (k s) = friction (firm 18) /\ 0 <= bu (k s) <= 20 /\ 0.9 <= bco (k s) <= 1 /\
    Rabs (bsi (k s)) = 2.5 / 8 /\ 0 <= oW (o s) <= / 1000 /\ 0 <= ou (o s) <= / 10000 /\ 0 <= oa (o s) <= / 1000000 /\ 0 <= ot (o s) <= / 500000 ->
    firm_den 1 (k s) (o s) /\ 3.5 <= turn_x 5 1 (k s) <= 733 /\ turn_off 5 1 (k s) (o s) <= 1 /\ turn_gross_x 5 1 (k s) (o s) <= 40000).
  { intros s (W & C & T & Uu & Co & Si & OW & Ou & Oa & Ot). set (K := k s) in *. set (O := o s) in *. rewrite <- T in TT. set (t := bt K) in *.
    assert (ST : 0 <= Rabs (bsi K) * t <= 2.5 / 8) by (rewrite Si; lra).
    assert (DX : 0.58 <= den_x 1 K <= 1.4).
    { unfold den_x. pose proof (Rabs_mult (bsi K) t) as E. rewrite (Rabs_right t) in E by lra. rewrite <- E in ST. fold t.
      assert (Z : - (2.5 / 8) <= bsi K * t <= 2.5 / 8) by (pose proof (Rle_abs (bsi K * t)); pose proof (Rle_abs (- (bsi K * t))) as Y; rewrite Rabs_Ropp in Y; lra). lra. }
    assert (DG : 0 <= den_gross_x 1 K <= 1.4) by (unfold den_gross_x; fold t; lra).
    assert (OT : 0 <= oa O * (t + ot O) <= / 1000000 * 2) by (split; [apply Rmult_le_pos; lra|apply Rmult_le_compat; lra]).
    assert (DO : 0 <= den_off 1 K O <= 0.00001) by (unfold den_off; fold t; lra).
    assert (UB : 0 <= bu K * 5 <= 100) by lra.
    assert (NG : 25 <= num_gross_x 5 K <= 525).
    { unfold num_gross_x. rewrite C. fold t. assert (0 <= (bW K + bu K * 5) * t <= 500 * 1) by (split; [apply Rmult_le_pos; lra|apply Rmult_le_compat; lra]). lra. }
    assert (NX : 5 * 1.2 - 1 <= num_x 5 K <= 425).
    { unfold num_x. rewrite C. fold t. assert (-20 * t <= (bW K - bu K * 5) * t <= 400 * t) by (split; apply Rmult_le_compat_r; lra). lra. }
    assert (NO : 0 <= num_off 5 K O <= 0.003).
    { unfold num_off. fold t. assert (0 <= (oW O + 5 * ou O) * (t + ot O) <= 0.0015 * 1.001) by (split; [apply Rmult_le_pos; lra|apply Rmult_le_compat; lra]).
      assert (0 <= (bW K + bu K * 5) * ot O <= 500 * / 500000) by (split; [apply Rmult_le_pos; lra|apply Rmult_le_compat; lra]). lra. }
    assert (AD : Rabs (den_x 1 K) = den_x 1 K) by (apply Rabs_right; lra).
    assert (ID : / 1.4 <= / den_x 1 K <= / 0.58) by (split; apply Rinv_le_contravar; lra).
    assert (TX : 3.5 <= turn_x 5 1 K <= 733).
    { unfold turn_x, Rdiv. split; [apply Rle_trans with (5 * / 1.4); [lra|apply Rmult_le_compat; lra]|apply Rle_trans with (425 * / 0.58); [apply Rmult_le_compat; lra|lra]]. }
    split; [|split; [|split]].
    - unfold firm_den. rewrite AD. split; [lra|]. split.
      + replace (p2 (-47)) with (64 * u) by (unfold u; replace (-47)%Z with (6 + -53)%Z by lia; rewrite p2_add; f_equal; rewrite p2_IZR by lia; reflexivity).
        apply Rle_trans with (64 * u * 2); [apply Rmult_le_compat_l; lra|lra].
      + apply Rle_trans with (p2 (- (1))); [apply p2_le; lia|]. rewrite p2_neg, p2_1. lra.
    - exact TX.
    - unfold turn_off. rewrite AD, (Rabs_right (turn_x 5 1 K)) by lra.
      assert (0 <= turn_x 5 1 K * den_off 1 K O <= 733 * 0.00001) by (split; [apply Rmult_le_pos; lra|apply Rmult_le_compat; lra]).
      unfold Rdiv. apply Rle_trans with (0.1 * / 0.58); [apply Rmult_le_compat; lra|lra].
    - unfold turn_gross_x. assert (I2 : 0 <= / (den_x 1 K * den_x 1 K) <= 4).
      { rewrite Rinv_mult. split; [apply Rmult_le_pos; lra|]. apply Rle_trans with (/ 0.58 * / 0.58); [apply Rmult_le_compat; lra|lra]. }
      assert (Z1 : 0 <= (num_gross_x 5 K + num_off 5 K O) * (den_gross_x 1 K + den_off 1 K O) <= 526 * 1.5) by (split; [apply Rmult_le_pos; lra|apply Rmult_le_compat; lra]).
      unfold Rdiv. rewrite (Rmult_assoc 4). apply Rle_trans with (4 * (526 * 1.5) * 4); [apply Rmult_le_compat; lra|lra]. }
  rewrite F1, EB. destruct sl as [|s1 [|s2 [|]]]; try discriminate LN.
  inversion_clear FB as [|? ? B1 FB']. inversion_clear FB' as [|? ? B2 _]. destruct (Q s1 B1) as (D1 & T1 & O1 & G1), (Q s2 B2) as (D2 & T2 & O2 & G2).
  split; [constructor; [exact D1|constructor; [exact D2|constructor]]|]. intros holds pulls e1 e2.
  change (total (fun s => pull_x (k s)) [s1; s2]) with pulls in EP. change (2 * e2 < 85) in E2.
  assert (EH : holds = turn_x 5 1 (k s1) + (turn_x 5 1 (k s2) + 0)) by reflexivity.
  assert (E1 : e1 <= 3).
  { unfold e1. cbn [total fold_right]. change (p2 (-53)) with u. change (p2 (-500)) with dust.
    assert (34 * u * (turn_gross_x 5 1 (k s1) (o s1) + (turn_gross_x 5 1 (k s2) (o s2) + 0)) <= 34 * u * 80000) by (apply Rmult_le_compat_l; lra). lra. }
  assert (1000000 <= p2 400) by (apply Rle_trans with (p2 20); [rewrite p2_IZR by lia; apply IZR_le; vm_compute; discriminate|apply p2_le; lia]).
  assert (1000000 * 85 <= p2 400 * pulls) by (apply Rmult_le_compat; lra).
  repeat split; lra.
Qed.
