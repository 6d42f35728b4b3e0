(** * WaterNear: the computed water pressure at the base of a slice against the exact one
    (pyslope.py:1444-1464). *)
From Coq Require Import ZArith Reals Lra Lia Bool List SpecFloat.
From Verif Require Import Num FloatNum RealNum Py Objects Slope Planes Analysis RoundTheory NearFacts SumNear WeightNear CircleNear.
Import ListNotations.
Local Open Scope R_scope.

(** [FR x] beyond the place [FR xw] where the water table meets the slope, and before the toe *)
Definition under_slope (xw x toe : R) : bool := if Rlt_dec xw x then if Rlt_dec x toe then true else false else false.
Definition pressure (H rl xw toe x yt yb : R) : R :=
  Rmax (Rmin rl yt - yb) 0 * (981 / 100) * (if under_slope xw x toe then H else 1).

Lemma weight_of_water : valid (f_lit 981 100) /\ Rabs (FR (f_lit 981 100) - 981 / 100) <= u * (981 / 100).
Proof.
  assert (E : f_lit 981 100 = S754_finite false 5522539043063071 (-49)) by (vm_compute; reflexivity). rewrite E.
  split; [split; reflexivity|]. rewrite FR_dyadic by lia. change (2 ^ (- -49))%Z with 562949953421312%Z. rewrite u_val.
  apply Rabs_le. split; lra.
Qed.
Lemma head_about (m yb : float) : valid m -> valid yb -> Rabs (FR m) <= fair -> Rabs (FR yb) <= fair ->
  let h := Rmax (FR m - FR yb) 0 in about (pymax (nsub m yb) (nz 0)) h h 1 0 /\ 0 <= h <= 2 * fair.
Proof.
  intros Vm Vy Bm By h. pose proof (abs_span _ _ Bm) as M1. pose proof (abs_span _ _ By) as M2.
  pose proof fair_vast as FV. pose proof fair_big as FB. pose proof vast_big as VB. pose proof top_vast as TV. pose proof u_pos as U.
  assert (FF : fair * 1 <= fair * fair) by (apply Rmult_le_compat_l; lra).
  destruct (sub_near m yb Vm Vy) as (Vs & Ns); [apply Rabs_def1; lra|]. destruct (nz_FR 0 eq_refl) as (V0 & E0).
  change (SFsub prec emax m yb) with (@nsub float FNum m yb) in *.
  destruct (pymax_FR (@nsub float FNum m yb) (nz 0) Vs V0) as (Vx & Ex). set (x := FR m - FR yb) in *.
  assert (H0 : 0 <= h) by apply Rmax_r. split.
  - split; [exact Vx|]. rewrite Ex, E0, (Rabs_right h) by lra. split; [lra|].
    unfold h, Rmax in *. set (y := FR (@nsub float FNum m yb)) in *. destruct (Rle_dec x 0) as [L|L].
    + rewrite (Rabs_left1 x) in Ns by lra. assert (UX : u * - x <= / 2 * - x) by (apply Rmult_le_compat_r; [lra|]; rewrite u_val; lra).
      pose proof (abs_span _ _ Ns). destruct (Rle_dec y 0); [|lra]. rewrite Rminus_0_r, Rabs_R0. lra.
    + rewrite (Rabs_right x) in Ns by lra. assert (UX : u * x <= / 2 * x) by (apply Rmult_le_compat_r; [lra|]; rewrite u_val; lra).
      pose proof (abs_span _ _ Ns). destruct (Rle_dec y 0); [lra|]. lra.
  - split; [exact H0|]. apply Rmax_lub; unfold x; lra.
Qed.
Lemma water_near (g : geom float) (H rl xw x yt yb : float) :
  valid H -> 0 <= FR H <= 2 -> valid rl -> valid xw -> valid x -> valid yt -> valid yb -> valid (fst (g_bot g)) ->
  Rabs (FR rl) <= fair -> Rabs (FR yt) <= fair -> Rabs (FR yb) <= fair ->
  let U := pressure (FR H) (FR rl) (FR xw) (FR (fst (g_bot g))) (FR x) (FR yt) (FR yb) in
  valid (water_u g H rl xw x yt yb) /\ Rabs (FR (water_u g H rl xw x yt yb) - U) <= 7 * u * U + p2 (-1000).
Proof.
  intros VH BH Vrl Vxw Vx Vyt Vyb Vt Brl Byt Byb U. unfold water_u.
  destruct (pymin_FR rl yt Vrl Vyt) as (Vm & Em). set (m := pymin rl yt) in *.
  assert (Bm : Rabs (FR m) <= fair) by (rewrite Em; unfold Rmin; destruct (Rle_dec _ _); assumption).
  destruct (head_about m yb Vm Vyb Bm Byb) as (AH & HB). set (h := Rmax (FR m - FR yb) 0) in *.
  destruct weight_of_water as (VL & EL). change (nlit 981 100) with (f_lit 981 100) in *. set (lit := f_lit 981 100) in *.
  pose proof (abs_span _ _ EL) as (L1 & L2). pose proof u_pos as UP. pose proof eta_pos as EP.
  pose proof fair_vast as FV. pose proof fair_big as FB. pose proof vast_big as VB.
  assert (LB : 9 <= FR lit <= 10) by (rewrite u_val in *; lra).
  assert (FF : fair * 1 <= fair * fair) by (apply Rmult_le_compat_l; lra).
  assert (FF' : fair * 1000000 <= fair * fair) by (apply Rmult_le_compat_l; lra).
  pose proof (mul_about _ lit _ _ _ _ AH VL ltac:(unfold many; lra) ltac:(lra)) as A1. rewrite (Rabs_right (FR lit)) in A1 by lra.
  assert (HL : 0 <= h * FR lit <= h * 10) by (split; [apply Rmult_le_pos; lra|apply Rmult_le_compat_l; lra]).
  specialize (A1 ltac:(rewrite Rplus_0_r; lra)).
  set (P := h * (981 / 100)) in *. assert (P0 : 0 <= P <= fair * fair) by (unfold P; lra).
  assert (A2 : about (nmul (pymax (nsub m yb) (nz 0)) lit) P P 5 eta).
  { destruct A1 as (V & _ & E). split; [exact V|]. rewrite Rabs_right by lra. split; [lra|].
    set (y := FR (nmul (pymax (nsub m yb) (nz 0)) lit)) in *.
    replace (y - P) with ((y - h * FR lit) + h * (FR lit - 981 / 100)) by (unfold P; ring).
    apply Rle_trans with (1 := Rabs_triang _ _). rewrite Rabs_mult, (Rabs_right h) by lra.
    assert (h * Rabs (FR lit - 981 / 100) <= h * (u * (981 / 100))) by (apply Rmult_le_compat_l; lra).
    assert (HP : h * FR lit <= / 4 * (5 * P)).
    { unfold P. replace (/ 4 * (5 * (h * (981 / 100)))) with (h * (/ 4 * (5 * (981 / 100)))) by ring. apply Rmult_le_compat_l; lra. }
    assert (u * (h * FR lit) <= u * (/ 4 * (5 * P))) by (apply Rmult_le_compat_l; lra).
    assert (0 <= u * P) by (apply Rmult_le_pos; lra).
    replace (h * (u * (981 / 100))) with (u * P) in * by (unfold P; ring). lra. }
  cbn [nltb FNum]. rewrite !ltb_FR by assumption. unfold Rltb.
  match goal with |- context [nmul _ (if ?c then H else nz 1)] => set (w := if c then H else nz 1) end.
  assert (WB : valid w /\ FR w = if under_slope (FR xw) (FR x) (FR (fst (g_bot g))) then FR H else 1).
  { unfold w, under_slope. destruct (nz_FR 1 eq_refl) as (V1 & E1).
    destruct (Rlt_dec (FR xw) (FR x)), (Rlt_dec (FR x) (FR (fst (g_bot g)))); cbn [andb]; auto. }
  destruct WB as (Vw & Ew). assert (BW : 0 <= FR w <= 2) by (rewrite Ew; destruct (under_slope _ _ _); lra).
  pose proof (mul_about _ w _ _ _ _ A2 Vw ltac:(unfold many; lra) ltac:(lra)) as A3. rewrite (Rabs_right (FR w)) in A3 by lra.
  assert (PE : 0 <= (P + eta) * FR w <= (P + eta) * 2) by (split; [apply Rmult_le_pos; lra|apply Rmult_le_compat_l; lra]).
  assert (E1 : eta <= 1) by (unfold eta; rewrite <- p2_0; apply p2_le; lia).
  specialize (A3 ltac:(lra)). destruct A3 as (V & _ & E).
  assert (UE : U = P * FR w) by (unfold U, pressure, P, h; rewrite Ew, Em; reflexivity).
  split; [exact V|]. rewrite UE. apply Rle_trans with (1 := E).
  assert (0 <= u * (P * FR w)) by (apply Rmult_le_pos; [lra|]; apply Rmult_le_pos; lra).
  assert (EE : eta * FR w <= eta * 2) by (apply Rmult_le_compat_l; lra).
  assert (8 * eta <= p2 (-1000)).
  { replace 8 with (p2 3) by (rewrite p2_IZR by lia; reflexivity). unfold eta. rewrite <- p2_add. apply p2_le. lia. }
  lra.
Qed.
