(** * PropsTurn: how far rounding moves a Bishop iteration and the water pressure (C109, C110).

    [FR x] is the real number a binary64 number stands for, [valid x] says that [x] is finite and
    in the one form binary64 has for it, [p2 e] is 2^e.  [turn], [pull] and [pressure] are the exact
    terms, written with the operations of the reals; [turn_gross] and [pull_gross] are the same with
    nothing subtracted. *)
From Coq Require Import ZArith Reals Lra Lia Bool List String SpecFloat.
From Verif Require Import Num RealNum FloatNum Py Validation Utilities Objects Slope Planes Analysis
     RoundTheory NearFacts SumNear WeightNear FosNear CircleNear BishopNear WaterNear PropsNear.
Import ListNotations.
Local Open Scope R_scope.

(** ** C109: a Bishop iteration on given slices *)
Theorem C109_step : forall (b p : float) (sl : list (slice float)), mild b -> fair_p p -> Forall plain_slice sl ->
  Forall (plain_turn (FR p)) sl -> INR (List.length sl) <= 1000000000000 ->
  let n := INR (List.length sl) in
  let holds := total (turn (FR b) (FR p)) sl in let pulls := total pull sl in
  let e1 := (2 * n + 30) * p2 (-53) * total (turn_gross (FR b) (FR p)) sl + 2 * n * p2 (-500) in
  let e2 := (2 * n + 9) * p2 (-53) * total pull_gross sl + 2 * n * p2 (-500) in
  2 * e2 < pulls -> e1 <= pulls -> e1 <= holds -> holds <= p2 400 * pulls ->
  exists F, bishop_step b sl p = Ok (Some F) /\ valid F /\
    Rabs (FR F - holds / pulls) <= 3 * (e1 + holds / pulls * e2) / pulls + p2 (-1075).
Proof. exact step_near. Qed.
Print Assumptions C109_step.
(** If the pull or the resistance is clearly negative the circle is discarded. *)
Theorem C109_none : forall (b p : float) (sl : list (slice float)), mild b -> fair_p p -> Forall plain_slice sl ->
  Forall (plain_turn (FR p)) sl -> INR (List.length sl) <= 1000000000000 ->
  let n := INR (List.length sl) in
  let e1 := (2 * n + 30) * p2 (-53) * total (turn_gross (FR b) (FR p)) sl + 2 * n * p2 (-500) in
  let e2 := (2 * n + 9) * p2 (-53) * total pull_gross sl + 2 * n * p2 (-500) in
  total pull sl < - e2 \/ total (turn (FR b) (FR p)) sl < - e1 -> bishop_step b sl p = Ok None.
Proof. exact step_none. Qed.
Print Assumptions C109_none.
(** The answer of the whole iteration is the value of its last step.  Either the step started
    closer than the tolerance, or all [k] steps were taken and none of them had. *)
Theorem C109_answer : forall (b tol : float) sl k p0 F, bishop_loop b tol sl k p0 = Ok (Some F) -> (0 < k)%nat ->
  exists p, bishop_step b sl p = Ok (Some F) /\
    (nltb (nabs (nsub F p)) tol = true \/
     exists ps, List.length ps = k /\ nth_error (p0 :: ps) (k - 1) = Some p /\ nth_error (p0 :: ps) k = Some F /\
       forall i x y, nth_error (p0 :: ps) i = Some x -> nth_error (p0 :: ps) (S i) = Some y ->
         bishop_step b sl x = Ok (Some y) /\ nltb (nabs (nsub y x)) tol = false).
Proof. intros b tol sl k p0 F. exact (loop_last b tol sl k p0 F). Qed.
Print Assumptions C109_answer.
Lemma fair_int z : (1 <= z <= 1000)%Z -> fair_p (f_of_Z z).
Proof.
  intros L. destruct (valid_int z) as (V & E); [lia|]. split; [exact V|]. rewrite E. split.
  - apply Rle_trans with (p2 0); [apply p2_le; lia|]. rewrite p2_0. apply (IZR_le 1). lia.
  - rewrite p2_IZR by lia. apply IZR_le. apply Z.le_trans with 1000%Z; [lia|]. vm_compute. discriminate.
Qed.
Lemma near_turn W sin : Rabs (FR sin) <= 3 / 4 -> plain_turn 1 (near_slice W sin).
Proof.
  intros B. destruct half_FR as (_ & Eh). unfold plain_turn, turn_den_gross, turn_den, near_slice. cbn [sl_cos sl_sin sl_tan]. rewrite Eh, p48, u_val.
  pose proof (abs_span _ _ B) as (B1 & B2). pose proof (Rabs_pos (FR sin)).
  assert (D : / 8 <= / 2 + FR sin * / 2 / 1) by lra. rewrite (Rabs_right (/ 2 + _)) by lra. split; [lra|].
  apply Rle_trans with (p2 (-3)); [apply p2_le; lia|]. change (-3)%Z with (- (3))%Z. rewrite p2_neg, p2_IZR by lia. change (2 ^ 3)%Z with 8%Z. lra.
Qed.
Example C109_step_case : let sl := [near_slice 100 down; near_slice 40 back] in
  mild (f_of_Z 1) /\ fair_p (f_of_Z 1) /\ Forall plain_slice sl /\ Forall (plain_turn (FR (f_of_Z 1))) sl /\
  total (turn (FR (f_of_Z 1)) (FR (f_of_Z 1))) sl = 54 / (7 / 8) + 24 / (3 / 8) /\ total pull sl = 65 /\
  total (turn_gross (FR (f_of_Z 1)) (FR (f_of_Z 1))) sl = 56 * (7 / 8) / (7 / 8 * (7 / 8)) + 26 * (5 / 8) / (3 / 8 * (3 / 8)) /\
  total pull_gross sl = 85 /\
  (exists F, bishop_step (f_of_Z 1) sl (f_of_Z 1) = Ok (Some F)) /\
  (exists F, bishop_loop (f_of_Z 1) (f_lit 1 100) sl 100 (f_of_Z 1) = Ok (Some F)) /\
  bishop_step (f_of_Z 1) [near_slice 40 back] (f_of_Z 1) = Ok None.
Proof.
  intros sl. pose proof half_FR as (Vh & Eh). pose proof down_FR as Ed. pose proof back_FR as Eb.
  destruct C107_factor_case as (Mb & Ps & _ & Pl & _ & Pg & _). fold sl in Ps, Pl, Pg.
  split; [exact Mb|]. split; [apply fair_int; lia|]. split; [exact Ps|].
  assert (E1 : FR (f_of_Z 1) = 1) by (apply valid_int; reflexivity).
  split. { rewrite E1. unfold sl. apply Forall_cons; [|apply Forall_cons; [|apply Forall_nil]]; apply near_turn; [rewrite Ed, Rabs_right|rewrite Eb, Rabs_left]; lra. }
  assert (T : total (turn 1 1) sl = 54 / (7 / 8) + 24 / (3 / 8) /\
    total (turn_gross 1 1) sl = 56 * (7 / 8) / (7 / 8 * (7 / 8)) + 26 * (5 / 8) / (3 / 8 * (3 / 8))).
  { unfold sl, near_slice, total, turn, turn_gross, turn_num, turn_den, turn_num_gross, turn_den_gross.
    cbn [fold_right sl_W sl_c sl_tan sl_u sl_cos sl_sin].
    rewrite Eh, Ed, Eb, !(fun z p => proj2 (valid_int z p)) by (vm_compute; reflexivity).
    rewrite (Rabs_right (3 / 4)), (Rabs_left (- / 4)) by lra. split; field. }
  rewrite E1. destruct T as (T1 & T2). split; [exact T1|]. split; [exact Pl|]. split; [exact T2|]. split; [exact Pg|].
  split; [|split]; [eexists; vm_compute; reflexivity|eexists; vm_compute; reflexivity|vm_compute; reflexivity].
Qed.

(** ** C110: the water pressure at the base of a slice *)
Theorem C110_water : forall (g : geom float) (H rl xw x yt yb : float),
  valid H -> 0 <= FR H <= 2 -> valid rl -> valid xw -> valid x -> valid yt -> valid yb -> valid (fst (g_bot g)) ->
  Rabs (FR rl) <= p2 400 -> Rabs (FR yt) <= p2 400 -> Rabs (FR yb) <= p2 400 ->
  let head := Rmax (Rmin (FR rl) (FR yt) - FR yb) 0 in
  let U := head * (981 / 100) *
    (if Rlt_dec (FR xw) (FR x) then if Rlt_dec (FR x) (FR (fst (g_bot g))) then FR H else 1 else 1) in
  valid (water_u g H rl xw x yt yb) /\ Rabs (FR (water_u g H rl xw x yt yb) - U) <= 7 * p2 (-53) * U + p2 (-1000).
Proof.
  intros g H rl xw x yt yb VH BH V1 V2 V3 V4 V5 V6 B1 B2 B3 head U.
  assert (E : U = pressure (FR H) (FR rl) (FR xw) (FR (fst (g_bot g))) (FR x) (FR yt) (FR yb)).
  { unfold U, pressure, under_slope. destruct (Rlt_dec (FR xw) (FR x)); [|reflexivity]. destruct (Rlt_dec _ _); reflexivity. }
  rewrite E. exact (water_near g H rl xw x yt yb VH BH V1 V2 V3 V4 V5 V6 B1 B2 B3).
Qed.
Print Assumptions C110_water.
(** below the table, behind the crest of the water and on the slope; above the table there is none *)
Example C110_water_case : let w x yb := water_u flat_g (f_lit 1 2) (f_of_Z 8) (f_of_Z 10) x (f_of_Z 9) yb in
  FR (fst (g_bot flat_g)) = 12 /\ w (f_of_Z 9) (f_of_Z 6) = nmul (f_of_Z 2) (f_lit 981 100) /\
  w (f_of_Z 11) (f_of_Z 6) = f_lit 981 100 /\ FR (w (f_of_Z 11) (f_of_Z 9)) = 0 /\
  pressure (/ 2) 8 10 12 11 9 6 = 981 / 100.
Proof.
  intros w. split. { transitivity (FR (f_of_Z 12)); [reflexivity|]. apply valid_int. reflexivity. }
  split; [vm_compute; reflexivity|]. split; [vm_compute; reflexivity|]. split.
  - replace (w (f_of_Z 11) (f_of_Z 9)) with (f_of_Z 0) by (vm_compute; reflexivity). apply valid_int. reflexivity.
  - unfold pressure, under_slope. destruct (Rlt_dec 10 11); [|lra]. destruct (Rlt_dec 11 12); [|lra].
    rewrite Rmin_left, Rmax_left by lra. lra.
Qed.
