(** * TanNear: the rounding error of pi, of [math.radians] and of the tangent of a friction angle
    (pyslope.py:185). *)
From Coq Require Import Reals Machin ZArith Lra Lia Bool SpecFloat List.
From Verif Require Import Num FloatNum RoundTheory NearFacts SumNear SinNear AtanNear.
Local Open Scope R_scope.

(** ** pi *)
Lemma pi_160_is : pi_160 = Z.shiftr (4 * atan_fix 180 (one 180)) 20.
Proof. vm_compute. reflexivity. Qed.
Lemma f_pi_is : f_pi = of_fix 160 pi_160.
Proof. vm_compute. reflexivity. Qed.

Lemma pi_of_quarter a : Rabs (IZR a / p2 180 - PI / 4) <= p2 (-67) ->
  Rabs (IZR (Z.shiftr (4 * a) 20) / p2 160 - PI) <= p2 (-64).
Proof.
  intros N. pose proof (p2_pos 180) as P. rewrite Z.shiftr_div_pow2 by lia.
  pose proof (floor_div (4 * a) (2 ^ 20) ltac:(reflexivity)) as F. rewrite mult_IZR, <- (p2_IZR 20) in F by lia.
  set (q := IZR (4 * a / 2 ^ 20)) in *. change 180%Z with (20 + 160)%Z in N, P. rewrite p2_add in N, P.
  pose proof (p2_pos 20) as P1. pose proof (p2_pos 160) as P2. set (A := IZR a) in *.
  assert (E : 4 * A / p2 20 / p2 160 = 4 * (A / (p2 20 * p2 160))) by (field; lra).
  assert (Q : Rabs (q / p2 160 - 4 * A / p2 20 / p2 160) <= / p2 160).
  { replace (q / p2 160 - 4 * A / p2 20 / p2 160) with ((q - 4 * A / p2 20) * / p2 160) by (field; lra).
    rewrite Rabs_mult, Rabs_inv, (Rabs_right (p2 160)) by lra. rewrite <- (Rmult_1_l (/ p2 160)) at 2.
    apply Rmult_le_compat_r; [left; apply Rinv_0_lt_compat; assumption|]. apply Rabs_le. lra. }
  rewrite E in Q. destruct (inv_80 160 ltac:(lia)) as [_ I]. set (B := A / (p2 20 * p2 160)) in *.
  replace (q / p2 160 - PI) with ((q / p2 160 - 4 * B) + 4 * (B - PI / 4)) by lra.
  apply Rle_trans with (1 := Rabs_triang _ _). rewrite (Rabs_mult 4), (Rabs_right 4) by lra.
  assert (C1 : p2 (-64) = 8 * p2 (-67)).
  { replace (-64)%Z with (3 + -67)%Z by reflexivity. rewrite p2_add, (p2_IZR 3) by lia. reflexivity. }
  assert (C2 : p2 (-80) <= p2 (-67)) by (apply p2_le; lia). pose proof (p2_pos (-67)). lra.
Qed.

Lemma quarter K : (80 <= K)%Z -> Rabs (IZR (atan_fix K (one K)) / p2 K - PI / 4) <= p2 (-67).
Proof.
  intros HK. pose proof (atan_fix_near K (one K) HK) as N. rewrite one_value in N by lia. pose proof (p2_pos K) as P.
  replace (p2 K / p2 K) with 1 in N by (field; lra). rewrite atan_1 in N. exact N.
Qed.
Lemma pi_160_near : Rabs (IZR pi_160 / p2 160 - PI) <= p2 (-64).
Proof.
  apply (fun E => eq_ind_r (fun z => Rabs (IZR z / p2 160 - PI) <= p2 (-64)) E pi_160_is).
  apply pi_of_quarter. apply quarter. lia.
Qed.

Lemma pi_near : valid f_pi /\ Rabs (FR f_pi - PI) <= 2 * u * PI.
Proof.
  rewrite f_pi_is. pose proof PI_RGT_0 as Pp. pose proof pi_upper as Pu.
  destruct (of_fix_near 160 pi_160 PI (p2 (-64))) as (V & N); [lia|rewrite Rabs_right; lra| |exact pi_160_near|].
  - split; [left; apply p2_pos|apply p2_le; lia].
  - split; [exact V|]. rewrite (Rabs_right PI) in N by lra. apply Rle_trans with (1 := N).
    assert (2 * p2 (-64) <= u * 1); [|pose proof PI2_1; pose proof u_pos; nra].
    unfold u. replace (-64)%Z with (-53 + - (11))%Z by reflexivity. rewrite p2_add, p2_neg, (p2_IZR 11) by lia.
    change (2 ^ 11)%Z with 2048%Z. pose proof (p2_pos (-53)). lra.
Qed.

(** ** radians *)
Lemma radians_near x : valid x -> 0 <= FR x <= 180 -> valid (nradians x) /\
  Rabs (FR (nradians x) - FR x * (PI / 180)) <= 5 * u * (FR x * (PI / 180)) + p2 (-1000).
Proof.
  intros V B. destruct pi_near as (Vp & Np). pose proof PI_RGT_0 as Pp. pose proof pi_upper as Pu. pose proof PI2_1 as Pl.
  pose proof u_pos as U0. assert (U1 : u <= / 1000000) by (rewrite u_val; lra).
  destruct (nz_FR 180 eq_refl) as (V180 & E180). change (@npi float FNum) with f_pi in *.
  assert (Bp : 1 <= FR f_pi <= 4) by (apply Rabs_le_inv in Np; split; nra).
  assert (BIG : 1000000 < p2 1023).
  { apply Rle_lt_trans with (p2 20); [rewrite p2_IZR by lia; apply IZR_le; vm_compute; discriminate|apply p2_lt; lia]. }
  assert (Et : eta <= p2 (-1001)) by (unfold eta; apply p2_le; lia).
  unfold nradians. change (@npi float FNum) with f_pi.
  destruct (div_near f_pi (nz 180) Vp V180) as (Vk & Nk); [rewrite E180; lra| |].
  { rewrite E180, Rabs_right by lra. lra. }
  change (@ndiv float FNum) with (SFdiv prec emax) in *. change (@nmul float FNum) with (SFmul prec emax) in *.
  set (k := SFdiv prec emax f_pi (nz 180)).
  change (valid k) in Vk. change (near (FR k) (FR f_pi / FR (nz 180))) in Nk.
  change (valid (SFmul prec emax x k) /\
    Rabs (FR (SFmul prec emax x k) - FR x * (PI / 180)) <= 5 * u * (FR x * (PI / 180)) + p2 (-1000)). clearbody k. rewrite E180 in Nk. unfold near in Nk.
  assert (P9 : p2 (-1001) <= u / 1000).
  { apply Rle_trans with (p2 (-53 + - (10))); [apply p2_le; lia|]. rewrite p2_add, p2_neg, (p2_IZR 10) by lia.
    change (2 ^ 10)%Z with 1024%Z. change (p2 (-53)) with u. lra. }
  rewrite Rmax_left, (Rabs_right (FR f_pi / 180)) in Nk; [|lra|rewrite Rabs_right by lra; unfold Rdiv; nra].
  assert (Ek : Rabs (FR k - PI / 180) <= 3.1 * u * (PI / 180)).
  { apply Rabs_le_inv in Nk. apply Rabs_le_inv in Np. apply Rabs_le.
    assert (A0 : 0 < u * PI) by (apply Rmult_lt_0_compat; lra).
    assert (A1 : u * FR f_pi <= u * (PI + 2 * u * PI)) by (apply Rmult_le_compat_l; lra).
    assert (A2 : u * (u * PI) <= / 1000000 * (u * PI)) by (apply Rmult_le_compat_r; lra). split; lra. }
  assert (Bk : 0 < FR k <= 1).
  { apply Rabs_le_inv in Ek. assert (0 < u * (PI / 180) <= / 1000000 * (PI / 180)) by (split; [apply Rmult_lt_0_compat; lra|apply Rmult_le_compat_r; lra]). lra. }
  destruct (mul_near x k V Vk) as (Vm & Nm).
  { rewrite Rabs_right by nra. nra. }
  assert (Em : Rabs (FR (SFmul prec emax x k) - FR x * FR k) <= u * (FR x * FR k) + eta).
  { apply Rle_trans with (1 := Nm). rewrite Rabs_right by nra. assert (0 <= u * (FR x * FR k)) by (apply Rmult_le_pos; nra).
    pose proof eta_pos. apply Rmax_lub; lra. }
  split; [exact Vm|].
  apply Rabs_le_inv in Em. apply Rabs_le_inv in Ek. assert (2 * p2 (-1001) = p2 (-1000)).
    { replace (-1000)%Z with (1 + -1001)%Z by reflexivity. rewrite p2_add, p2_1. reflexivity. }
    pose proof (p2_pos (-1001)). set (X := FR x) in *. set (m := FR (SFmul prec emax x k)) in *. set (K := FR k) in *.
    assert (A1 : X * K <= X * (PI / 180) * (1 + 3.1 * u)) by nra.
    assert (A2 : X * (PI / 180) * (1 - 3.1 * u) <= X * K) by nra.
    set (y := X * (PI / 180)) in *. assert (0 <= y) by (unfold y; apply Rmult_le_pos; lra).
    assert (0 <= u * y) by (apply Rmult_le_pos; lra). assert (u * (u * y) <= / 1000000 * (u * y)) by (apply Rmult_le_compat_r; lra).
    apply Rabs_le. split; nra.
Qed.

(** ** The tangent, up to 1.3 (about 74.5 degrees) *)
Lemma cos_lower a : Rabs a <= 1.3 -> 0.26 <= cos a.
Proof.
  intros B. assert (G : 0.26 <= cos 1.3).
  { apply Rle_trans with (2 := proj1 (pre_cos_bound 1.3 1 ltac:(lra) ltac:(lra))).
    unfold cos_approx, cos_term. cbn [sum_f_R0 Nat.mul Nat.add pow fact]. rewrite !INR_IZR_INZ. cbn. lra. }
  assert (P : 1.3 <= PI) by (pose proof PI2_1; lra).
  assert (E : cos a = cos (Rabs a)).
  { unfold Rabs. destruct Rcase_abs; [symmetry; apply cos_neg|reflexivity]. }
  rewrite E. apply Rle_trans with (1 := G). apply cos_decr_1; try lra; apply Rabs_pos.
Qed.
Lemma tan_lip a b : Rabs a <= 1.3 -> Rabs b <= 1.3 -> Rabs (tan a - tan b) <= 14.8 * Rabs (a - b).
Proof.
  intros A B. pose proof (cos_lower a A) as Ca. pose proof (cos_lower b B) as Cb.
  assert (E : tan a - tan b = sin (a - b) * / (cos a * cos b)).
  { rewrite sin_minus. unfold tan. field. lra. }
  rewrite E, Rabs_mult, Rabs_inv, (Rabs_right (cos a * cos b)) by nra.
  pose proof (sin_lip (a - b) 0) as S. rewrite sin_0, !Rminus_0_r in S.
  rewrite Rmult_comm. apply Rmult_le_compat; [left; apply Rinv_0_lt_compat; nra|apply Rabs_pos| |exact S].
  apply Rmult_le_reg_r with (cos a * cos b); [nra|]. rewrite Rinv_l by nra. nra.
Qed.

Lemma fdiv_near K s c sr cr d : (80 <= K)%Z -> Rabs (IZR s / p2 K - sr) <= d -> Rabs (IZR c / p2 K - cr) <= d ->
  0.26 <= cr <= 1 -> Rabs sr <= 1 -> d <= p2 (-70) ->
  Rabs (IZR (fdiv K s c) / p2 K - sr / cr) <= p2 (-61).
Proof.
  intros HK S C Bc Bs Bd. destruct (inv_80 K HK) as [I0 I1]. pose proof (p2_pos K) as P.
  assert (S7 : p2 (-70) <= / 1024).
  { apply Rle_trans with (p2 (- (10))); [apply p2_le; lia|]. rewrite p2_neg, p2_IZR by lia. change (2 ^ 10)%Z with 1024%Z. lra. }
  set (sf := IZR s / p2 K) in *. set (cf := IZR c / p2 K) in *. apply Rabs_le_inv in C. assert (Cf : 0.25 <= cf) by lra.
  assert (Cz : (0 < c)%Z).
  { apply lt_IZR. apply Rmult_lt_reg_r with (/ p2 K); [assumption|]. unfold cf, Rdiv in Cf. lra. }
  unfold fdiv. destruct (Z.eqb_spec c 0); [lia|]. pose proof (floor_div (Z.shiftl s K) c Cz) as F.
  rewrite Z.shiftl_mul_pow2 in * by lia. rewrite mult_IZR, <- p2_IZR in F by lia.
  assert (cp : 0 < IZR c) by (apply (IZR_lt 0); assumption).
  assert (Q : IZR s * p2 K / IZR c = sf / cf * p2 K) by (unfold sf, cf; field; lra). rewrite Q in F.
  set (q := IZR (s * 2 ^ K / c)) in *.
  assert (E1 : Rabs (q / p2 K - sf / cf) <= / p2 K).
  { replace (q / p2 K - sf / cf) with ((q - sf / cf * p2 K) * / p2 K) by (field; lra).
    rewrite Rabs_mult, (Rabs_right (/ p2 K)) by lra. rewrite <- (Rmult_1_l (/ p2 K)) at 2.
    apply Rmult_le_compat_r; [lra|]. apply Rabs_le. lra. }
  assert (E2 : Rabs (sf / cf - sr / cr) <= 32 * d).
  { replace (sf / cf - sr / cr) with (((sf - sr) * cr - sr * (cf - cr)) * (/ cf * / cr)) by (field; lra).
    assert (Icf : 0 < / cf <= 4) by (split; [apply Rinv_0_lt_compat; lra|replace 4 with (/ 0.25) by lra; apply Rinv_le_contravar; lra]).
    assert (Icr : 0 < / cr <= 4) by (split; [apply Rinv_0_lt_compat; lra|replace 4 with (/ 0.25) by lra; apply Rinv_le_contravar; lra]).
    rewrite Rabs_mult, (Rabs_right (/ cf * / cr)) by nra.
    assert (d0 : 0 <= d) by lra.
    assert (A : Rabs ((sf - sr) * cr - sr * (cf - cr)) <= 2 * d).
    { apply Rle_trans with (1 := Rabs_triang _ _). rewrite Rabs_Ropp, !Rabs_mult, (Rabs_right cr) by lra.
      assert (Rabs (cf - cr) <= d) by (apply Rabs_le; lra). pose proof (Rabs_pos (sf - sr)). pose proof (Rabs_pos (cf - cr)). pose proof (Rabs_pos sr). nra. }
    apply Rle_trans with (2 * d * 16); [|lra]. apply Rmult_le_compat; [apply Rabs_pos|nra|exact A|nra]. }
  replace (q / p2 K - sr / cr) with ((q / p2 K - sf / cf) + (sf / cf - sr / cr)) by ring.
  apply Rle_trans with (1 := Rabs_triang _ _).
  assert (A : p2 (-80) <= p2 (-70)) by (apply p2_le; lia).
  assert (W : p2 (-61) = 512 * p2 (-70)).
  { replace (-61)%Z with (9 + -70)%Z by reflexivity. rewrite p2_add, (p2_IZR 9) by lia. reflexivity. }
  pose proof (p2_pos (-70)). lra.
Qed.

Lemma tan_near x : valid x -> Rabs (FR x) <= 1.3 ->
  valid (f_tan x) /\ Rabs (FR (f_tan x) - tan (FR x)) <= u * Rabs (tan (FR x)) + p2 (-60).
Proof.
  intros V B. pose proof (cos_lower (FR x) B) as Cl.
  assert (Fx : forall K, (K = 80)%Z \/ (K = 160)%Z ->
    Rabs (IZR (fdiv K (sin_fix K (to_fix K x)) (cos_fix K (to_fix K x))) / p2 K - tan (FR x)) <= p2 (-61)).
  { intros K HK. unfold tan. apply fdiv_near with (d := p2 (-70)); [lia|apply sin_fix_near; [assumption|lra]|apply cos_fix_near; [assumption|lra]
      |split; [assumption|apply COS_bound]|apply Rabs_le, SIN_bound|lra]. }
  assert (T5 : Rabs (tan (FR x)) <= 5).
  { unfold tan, Rdiv. rewrite Rabs_mult, Rabs_inv, (Rabs_right (cos (FR x))) by lra.
    assert (Rabs (sin (FR x)) <= 1) by (apply Rabs_le, SIN_bound). apply Rmult_le_reg_r with (cos (FR x)); [lra|].
    rewrite Rmult_assoc, Rinv_l by lra. lra. }
  assert (D : 0 <= p2 (-61) <= p2 (-60)) by (split; [left; apply p2_pos|apply p2_le; lia]).
  assert (W : 2 * p2 (-61) = p2 (-60)).
  { replace (-60)%Z with (1 + -61)%Z by reflexivity. rewrite p2_add, p2_1. reflexivity. }
  destruct x as [s|s| |s m e]; try (destruct V as [Fi _]; discriminate Fi).
  - cbn [f_tan]. split; [exact V|]. cbn [FR]. rewrite tan_0, Rminus_eq_0, Rabs_R0. lra.
  - unfold f_tan. cbv zeta. rewrite <- W. destruct (_ || _)%bool.
    + apply of_fix_near; [lia|assumption|assumption|apply Fx; right; reflexivity].
    + apply of_fix_near; [lia|assumption|assumption|apply Fx; left; reflexivity].
Qed.

(** ** The coefficient of friction of a material *)
Lemma pi_lower : 3.1 <= PI.
Proof.
  pose proof (proj1 (PI_2_3_7_ineq 0)) as P. cbn [sum_f_R0 Nat.mul Nat.add] in P.
  unfold tg_alt, PI_2_3_7_tg, Ratan_seq in P. cbn [Nat.mul Nat.add pow] in P.
  rewrite !INR_IZR_INZ in P. cbn in P. lra.
Qed.
Lemma tan_above a : 0 <= a <= 1.3 -> a <= tan a.
Proof.
  intros A. destruct (Req_dec a 0) as [->|N]; [rewrite tan_0; lra|].
  assert (Q : 0 < a < PI / 2) by (pose proof pi_lower; lra).
  destruct (MVT_cor2 atan (fun c => / (1 + c ^ 2)) 0 (tan a)) as (c & E & C).
  - apply tan_gt_0; lra.
  - intros; apply derivable_pt_lim_atan.
  - rewrite atan_0, atan_tan, !Rminus_0_r in E by lra. pose proof (pow2_ge_0 c). rewrite E at 1.
    assert (0 < tan a) by (apply tan_gt_0; lra).
    apply Rle_trans with (1 * tan a); [|lra]. apply Rmult_le_compat_r; [lra|].
    apply Rle_trans with (/ 1); [apply Rinv_le_contravar; lra|lra].
Qed.

Lemma friction_near phi : valid phi -> 0 <= FR phi <= 74 ->
  valid (ntan (nradians phi)) /\
  Rabs (FR (ntan (nradians phi)) - tan (FR phi * (PI / 180))) <= 80 * u * tan (FR phi * (PI / 180)) + p2 (-59).
Proof.
  intros V B. destruct (radians_near phi V ltac:(lra)) as (Vr & Nr). pose proof pi_upper as Pu. pose proof PI_RGT_0 as Pp.
  set (t := FR phi * (PI / 180)) in *. assert (T : 0 <= t <= 1.2992).
  { unfold t. split; [apply Rmult_le_pos; lra|]. apply Rle_trans with (74 * (3.16 / 180)); [apply Rmult_le_compat; lra|lra]. }
  pose proof u_pos as U0. assert (U1 : u <= / 1000000) by (rewrite u_val; lra).
  assert (S9 : p2 (-1000) <= p2 (-80)) by (apply p2_le; lia).
  assert (S8 : p2 (-80) <= u / 1000).
  { apply Rle_trans with (p2 (-53 + - (10))); [apply p2_le; lia|]. rewrite p2_add, p2_neg, (p2_IZR 10) by lia.
    change (2 ^ 10)%Z with 1024%Z. change (p2 (-53)) with u. lra. }
  set (a := FR (nradians phi)) in *.
  assert (Ba : Rabs a <= 1.3).
  { apply Rabs_le_inv in Nr. apply Rabs_le. split; nra. }
  assert (Bt : Rabs t <= 1.3) by (rewrite Rabs_right; lra).
  change (@ntan float FNum) with f_tan. destruct (tan_near (nradians phi) Vr Ba) as (Vt & Nt). fold a in Nt. split; [exact Vt|].
  pose proof (tan_lip a t Ba Bt) as L. pose proof (tan_above t ltac:(lra)) as TA. set (y := FR (f_tan (nradians phi))) in *.
  assert (La : Rabs (tan a - tan t) <= 74 * u * tan t + 14.8 * p2 (-1000)).
  { apply Rle_trans with (1 := L). assert (5 * u * t <= 5 * u * tan t) by (apply Rmult_le_compat_l; lra). lra. }
  assert (Ta : Rabs (tan a) <= tan t + Rabs (tan a - tan t)).
  { replace (tan a) with ((tan a - tan t) + tan t) at 1 by ring. apply Rle_trans with (1 := Rabs_triang _ _).
    rewrite (Rabs_right (tan t)) by lra. lra. }
  replace (y - tan t) with ((y - tan a) + (tan a - tan t)) by ring. apply Rle_trans with (1 := Rabs_triang _ _).
  assert (W : 2 * p2 (-60) = p2 (-59)).
  { replace (-59)%Z with (1 + -60)%Z by reflexivity. rewrite p2_add, p2_1. reflexivity. }
  assert (A : 100 * p2 (-1000) <= p2 (-60)).
  { apply Rle_trans with (p2 7 * p2 (-1000)); [apply Rmult_le_compat_r; [left; apply p2_pos|rewrite p2_IZR by lia; apply IZR_le; vm_compute; discriminate]|].
    rewrite <- p2_add. apply p2_le. lia. }
  assert (0 <= u * tan t) by (apply Rmult_le_pos; lra). pose proof (p2_pos (-1000)).
  assert (u * Rabs (tan a - tan t) <= 1 * Rabs (tan a - tan t) * / 1000000) by (pose proof (Rabs_pos (tan a - tan t)); nra).
  assert (u * Rabs (tan a) <= u * tan t + u * Rabs (tan a - tan t)) by (rewrite <- Rmult_plus_distr_l; apply Rmult_le_compat_l; lra). lra.
Qed.
