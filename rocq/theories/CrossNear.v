(** * CrossNear: the computed crossings of a circle with a line against the exact ones
    (utilities.py:52-83). *)
From Coq Require Import ZArith Reals Lra Lia Bool List SpecFloat.
From Verif Require Import Num FloatNum RealNum Py Validation Utilities Objects Slope Planes RealFacts RoundTheory NearFacts SumNear WeightNear FosNear CircleNear
     BishopNear FactorNear TurnNear.
Import ListNotations.
Local Open Scope R_scope.

(** ** Numbers known up to a multiple of the rounding unit *)
Lemma plus_close (sub : bool) a b va vb ga gb k c : about a va ga k 0 -> about b vb gb c 0 -> 0 <= k <= many -> 0 <= c <= many -> ga <= vast -> gb <= vast ->
  about ((if sub then nsub else nadd) a b) (if sub then va - vb else va + vb) (ga + gb) (Rmax k c + 2) 0.
Proof.
  intros A B K C Ga Gb. pose proof vast_big. destruct sub.
  - pose proof (sub_about _ _ _ _ _ _ _ _ _ _ A B K C ltac:(lra) ltac:(lra) Ga Gb) as Q. apply about_weaken with (1 := Q); lra.
  - pose proof (add_about _ _ _ _ _ _ _ _ _ _ A B K C ltac:(lra) ltac:(lra) Ga Gb) as Q. apply about_weaken with (1 := Q); lra.
Qed.
Lemma times_close a b va vb ga gb k c : about a va ga k 0 -> about b vb gb c 0 -> 0 <= k <= many -> 0 <= c <= many -> ga * gb <= vast -> eta <= u * (ga * gb) ->
  about (nmul a b) (va * vb) (ga * gb) (2 * k + c + 3) 0.
Proof.
  intros (Va & Ga & Ea) (Vb & Gb & Eb) K C V ET. pose proof (few_u k K) as Fk. pose proof (few_u c C) as Fc. pose proof u_pos as U.
  assert (a0 : 0 <= ga) by (pose proof (Rabs_pos va); lra). assert (b0 : 0 <= gb) by (pose proof (Rabs_pos vb); lra).
  assert (G0 : 0 <= ga * gb) by (apply Rmult_le_pos; lra). set (g := ga * gb) in *.
  assert (Sb : Rabs (FR b) <= gb + c * u * gb).
  { replace (FR b) with (vb + (FR b - vb)) by ring. apply Rle_trans with (1 := Rabs_triang _ _). lra. }
  assert (D : Rabs (FR a * FR b - va * vb) <= (k * (1 + c * u) + c) * u * g).
  { replace (FR a * FR b - va * vb) with ((FR a - va) * FR b + va * (FR b - vb)) by ring. apply Rle_trans with (1 := Rabs_triang _ _). rewrite !Rabs_mult.
    apply Rle_trans with ((k * u * ga) * (gb + c * u * gb) + ga * (c * u * gb)); [|unfold g; lra].
    apply Rplus_le_compat; apply Rmult_le_compat; try apply Rabs_pos; lra. }
  assert (D1 : (k * (1 + c * u) + c) * u * g <= (2 * k + c) * u * g).
  { apply Rmult_le_compat_r; [exact G0|]. apply Rmult_le_compat_r; [lra|]. assert (k * (1 + c * u) <= k * 2) by (apply Rmult_le_compat_l; lra). lra. }
  assert (D2 : (2 * k + c) * u * g <= / 2 * g).
  { apply Rmult_le_compat_r; [exact G0|]. lra. }
  assert (VG : Rabs (va * vb) <= g) by (rewrite Rabs_mult; apply Rmult_le_compat; try apply Rabs_pos; assumption).
  assert (S : Rabs (FR a * FR b) <= 2 * g).
  { replace (FR a * FR b) with (va * vb + (FR a * FR b - va * vb)) by ring. apply Rle_trans with (1 := Rabs_triang _ _). lra. }
  pose proof top_vast. pose proof vast_big. destruct (mul_near a b Va Vb) as (VV & N); [lra|]. split; [exact VV|]. split; [exact VG|].
  cbn [nmul FNum]. set (r := FR (SFmul prec emax a b)) in *. replace (r - va * vb) with ((r - FR a * FR b) + (FR a * FR b - va * vb)) by ring.
  apply Rle_trans with (1 := Rabs_triang _ _).
  assert (M : Rmax (u * Rabs (FR a * FR b)) eta <= 2 * (u * g)).
  { apply Rmax_lub; [|assert (0 <= u * g) by (apply Rmult_le_pos; lra); lra]. replace (2 * (u * g)) with (u * (2 * g)) by ring. apply Rmult_le_compat_l; lra. }
  unfold near in N. assert (0 <= u * g) by (apply Rmult_le_pos; lra). lra.
Qed.
Lemma abs_close a v g k d : about a v g k d -> about (nabs a) (Rabs v) g k d.
Proof.
  intros (V & G & E). destruct (abs_FR a V) as (VA & EA). split; [exact VA|]. rewrite Rabs_Rabsolu. split; [exact G|]. rewrite EA.
  apply Rle_trans with (2 := E). apply Rabs_triang_inv2.
Qed.
Lemma exact_close x g : valid x -> Rabs (FR x) <= g -> about x (FR x) g 0 0.
Proof. intros V L. apply about_gross with (Rabs (FR x)); [now apply about_exact|lra|exact L]. Qed.
(** the square of a square root *)
Lemma square_root a v g k : about a v g k 0 -> 0 <= FR a -> 0 <= k <= many -> g <= vast -> eta <= u * g -> eta <= u * u ->
  about (nsq (nsqrt a)) v g (k + 7) 0 /\ valid (nsqrt a).
Proof.
  intros (V & G & E) P K L ET EU. pose proof (few_u k K) as Fk. pose proof u_pos as U. assert (US : u <= / 1000) by (rewrite u_val; lra).
  destruct (sqrt_near a V P) as (Vs & Ns). change (SFsqrt prec emax a) with (nsqrt a) in *. set (y := FR (nsqrt a)) in *. set (s := sqrt (FR a)) in *.
  assert (s0 : 0 <= s) by apply sqrt_pos. assert (ss : s * s = FR a) by (apply sqrt_sqrt; exact P). pose proof eta_pos as EP.
  assert (g0 : 0 <= g) by (pose proof (Rabs_pos v); lra). assert (kg : k * u * g <= / 256 * g) by (apply Rmult_le_compat_r; lra).
  assert (A : FR a <= 1.01 * g) by (apply abs_span in E; pose proof (Rle_abs v); lra).
  assert (UG : 0 <= u * g) by (apply Rmult_le_pos; lra).
  assert (UA : u * FR a <= 1.01 * (u * g)) by (replace (1.01 * (u * g)) with (u * (1.01 * g)) by ring; apply Rmult_le_compat_l; lra).
  assert (D : Rabs (y * y - s * s) <= 3 * (u * g)).
  { replace (y * y - s * s) with ((y - s) * (2 * s + (y - s))) by ring. rewrite Rabs_mult.
    assert (T : Rabs (2 * s + (y - s)) <= 2 * s + Rabs (y - s)).
    { apply Rle_trans with (1 := Rabs_triang _ _). rewrite (Rabs_right (2 * s)) by lra. lra. }
    set (m := Rabs (y - s)) in *. assert (m0 : 0 <= m) by apply Rabs_pos. unfold near in Ns. fold m in Ns. rewrite (Rabs_right s) in Ns by lra.
    apply Rle_trans with (m * (2 * s + m)); [apply Rmult_le_compat_l; lra|].
    unfold Rmax in Ns. destruct (Rle_dec (u * s) eta) as [Q|Q].
    - assert (S1 : s <= u). { apply (Rmult_le_reg_l u); [exact U|]. apply Rle_trans with (1 := Q). exact EU. }
      assert (u * u <= / 1000 * u) by (apply Rmult_le_compat_r; lra). apply Rle_trans with (eta * 1); [apply Rmult_le_compat; lra|lra].
    - assert (us : 0 <= u * s) by (apply Rmult_le_pos; lra). assert (u * s <= / 1000 * s) by (apply Rmult_le_compat_r; lra).
      apply Rle_trans with ((u * s) * (2.001 * s)); [apply Rmult_le_compat; lra|]. replace (u * s * (2.001 * s)) with (2.001 * (u * (s * s))) by ring. rewrite ss. lra. }
  rewrite ss in D. split; [|exact Vs]. unfold nsq.
  assert (S : Rabs (y * y) <= 1.1 * g).
  { rewrite Rabs_right by (apply Rle_ge, Rle_0_sqr). apply abs_span in D. assert (u * g <= / 1000 * g) by (apply Rmult_le_compat_r; lra). lra. }
  pose proof top_vast. pose proof vast_big. destruct (mul_near _ _ Vs Vs) as (VV & N); [fold y; lra|]. split; [exact VV|]. split; [exact G|].
  cbn [nmul FNum]. fold y in N. set (r := FR (SFmul prec emax (nsqrt a) (nsqrt a))) in *. change (FR (SFmul prec emax (nsqrt a) (nsqrt a))) with r.
  assert (M : Rmax (u * Rabs (y * y)) eta <= 1.1 * (u * g)).
  { apply Rmax_lub; [|lra]. replace (1.1 * (u * g)) with (u * (1.1 * g)) by ring. apply Rmult_le_compat_l; lra. }
  unfold near in N. assert (N' : Rabs (r - y * y) <= 1.1 * (u * g)) by lra. clear N. apply abs_span in N', D, E. apply Rabs_le. lra.
Qed.
(** a square root whose argument is large against its error *)
Lemma root_close a v g k : about a v (g * g * 12) k 0 -> 0 < g -> 0 <= k <= many -> 0 < v -> 2 * (k * u * (g * g * 12)) <= v -> v <= 9 * (g * g) ->
  eta <= u * g -> g <= fair -> k >= 3 ->
  0 < FR a /\ about (nsqrt a) (sqrt v) (3 * g) (6 * k * (g / sqrt v)) 0.
Proof.
  intros (V & G & E) g0 K v0 L Vl ET GF K3. pose proof (few_u k K) as Fk. pose proof u_pos as U.
  pose proof (abs_span _ _ E) as Sp. assert (P : 0 < FR a) by lra. split; [exact P|].
  destruct (sqrt_near a V ltac:(lra)) as (Vs & Ns). change (SFsqrt prec emax a) with (nsqrt a) in *. split; [exact Vs|].
  set (s := sqrt (FR a)) in *. set (w := sqrt v) in *. assert (s0 : 0 < s) by now apply sqrt_lt_R0. assert (w0 : 0 < w) by now apply sqrt_lt_R0.
  assert (ss : s * s = FR a) by (apply sqrt_sqrt; lra). assert (ww : w * w = v) by (apply sqrt_sqrt; lra).
  assert (w3 : w <= 3 * g). { apply Rsqr_incr_0; unfold Rsqr; [|lra|lra]. rewrite ww. lra. }
  split; [rewrite Rabs_right; lra|].
  assert (Iw : 0 < / w) by now apply Rinv_0_lt_compat.
  assert (D : Rabs (s - w) <= k * u * (g * g * 12) * / w).
  { replace (s - w) with ((FR a - v) * / (s + w)) by (rewrite <- ss, <- ww; field; lra). rewrite Rabs_mult, (Rabs_right (/ (s + w))) by (left; apply Rinv_0_lt_compat; lra).
    apply Rmult_le_compat; [apply Rabs_pos|left; apply Rinv_0_lt_compat; lra|lra|]. apply Rinv_le_contravar; lra. }
  assert (s4 : s <= 4 * g). { apply Rsqr_incr_0; unfold Rsqr; [|lra|lra]. rewrite ss. lra. }
  assert (N : Rabs (FR (nsqrt a) - s) <= 4 * (u * g)).
  { apply Rle_trans with (1 := Ns). rewrite (Rabs_right s) by lra. assert (0 < u * g) by (apply Rmult_lt_0_compat; lra). apply Rmax_lub; [|lra].
    replace (4 * (u * g)) with (u * (4 * g)) by ring. apply Rmult_le_compat_l; lra. }
  assert (Q : / 3 <= g * / w).
  { apply (Rmult_le_reg_r w); [exact w0|]. rewrite Rmult_assoc, Rinv_l by lra. lra. }
  replace (FR (nsqrt a) - w) with ((FR (nsqrt a) - s) + (s - w)) by ring. apply Rle_trans with (1 := Rabs_triang _ _).
  replace (6 * k * (g / w) * u * (3 * g) + 0) with (k * u * (g * g * 12) * / w + 6 * k * (u * g) * (g * / w)) by (field; lra).
  assert (6 * k * (u * g) * / 3 <= 6 * k * (u * g) * (g * / w)).
  { apply Rmult_le_compat_l; [|exact Q]. apply Rmult_le_pos; [lra|]. apply Rmult_le_pos; lra. }
  assert (UG : 0 <= u * g) by (apply Rmult_le_pos; lra). assert (3 * (u * g) <= k * (u * g)) by (apply Rmult_le_compat_r; lra). lra.
Qed.
(** the quotient of such numbers when the size [z] of the exact quotient is known *)
Lemma over_close a l va vl ga gl k c z : about a va ga k 0 -> about l vl gl c 0 -> 0 <= k -> 0 <= c -> 0 < vl -> 2 * (c * u * gl) <= vl -> Rabs (va / vl) <= z ->
  let e := 2 * (k * u * ga + z * (c * u * gl)) / vl in
  z + e <= vast -> eta <= u * z -> FR l <> 0 /\ valid (ndiv a l) /\ Rabs (FR (ndiv a l) - va / vl) <= e + u * (2 * z + e).
Proof.
  intros (Va & Ga & Ea) (Vl & Gl & El) K C L0 LL Z e EV ET. pose proof u_pos as U. pose proof eta_pos as EP. pose proof (abs_span _ _ El) as Sp.
  assert (ga0 : 0 <= ga) by (pose proof (Rabs_pos va); lra). assert (gl0 : 0 <= gl) by (pose proof (Rabs_pos vl); lra).
  assert (z0 : 0 <= z) by (pose proof (Rabs_pos (va / vl)); lra).
  assert (H : / 2 * vl <= FR l) by lra. assert (Lp : 0 < FR l) by lra. split; [lra|].
  assert (I : 0 < / FR l <= 2 / vl).
  { split; [now apply Rinv_0_lt_compat|]. replace (2 / vl) with (/ (/ 2 * vl)) by (field; lra). apply Rinv_le_contravar; lra. }
  assert (K0 : 0 <= k * u * ga) by (apply Rmult_le_pos; [apply Rmult_le_pos|]; lra). assert (C0 : 0 <= c * u * gl) by (apply Rmult_le_pos; [apply Rmult_le_pos|]; lra).
  assert (ZC : 0 <= z * (c * u * gl)) by (apply Rmult_le_pos; lra).
  assert (D : Rabs (FR a / FR l - va / vl) <= e).
  { replace (FR a / FR l - va / vl) with ((FR a - va - va / vl * (FR l - vl)) * / FR l) by (field; lra). rewrite Rabs_mult, (Rabs_right (/ FR l)) by lra.
    unfold e. replace (2 * (k * u * ga + z * (c * u * gl)) / vl) with ((k * u * ga + z * (c * u * gl)) * (2 / vl)) by (field; lra).
    apply Rmult_le_compat; [apply Rabs_pos|lra| |lra]. unfold Rminus at 1. apply Rle_trans with (1 := Rabs_triang _ _). rewrite Rabs_Ropp, Rabs_mult.
    apply Rplus_le_compat; [lra|]. apply Rmult_le_compat; try apply Rabs_pos; lra. }
  assert (e0 : 0 <= e) by (pose proof (Rabs_pos (FR a / FR l - va / vl)); lra).
  assert (S : Rabs (FR a / FR l) <= z + e).
  { replace (FR a / FR l) with (va / vl + (FR a / FR l - va / vl)) by ring. apply Rle_trans with (1 := Rabs_triang _ _). lra. }
  pose proof top_vast. pose proof vast_big. destruct (div_near a l Va Vl) as (V & N); [lra|lra|]. split; [exact V|]. cbn [ndiv FNum].
  assert (M : Rmax (u * Rabs (FR a / FR l)) eta <= u * (2 * z + e)).
  { assert (0 <= u * z) by (apply Rmult_le_pos; lra). assert (0 <= u * e) by (apply Rmult_le_pos; lra).
    apply Rmax_lub; [|lra]. apply Rmult_le_compat_l; lra. }
  unfold near in N. assert (N' : Rabs (FR (SFdiv prec emax a l) - FR a / FR l) <= u * (2 * z + e)) by lra. apply abs_span in N'. apply abs_span in D. apply Rabs_le. lra.
Qed.

(** ** A circle and a line *)
Definition on_circle (cx cy r : R) (p : R * R) : Prop :=
  (fst p - cx) * (fst p - cx) + (snd p - cy) * (snd p - cy) = r * r.
Definition on_line (a b p : R * R) : Prop :=
  (fst p - fst a) * (snd b - snd a) = (snd p - snd a) * (fst b - fst a).
Definition FRp (p : point float) : R * R := (FR (fst p), FR (snd p)).
(** square of the distance of two points *)
Definition gap2 (a b : R * R) : R := (fst b - fst a) * (fst b - fst a) + (snd b - snd a) * (snd b - snd a).
(** twice the area of the triangle of the centre and the two points *)
Definition area2 (c a b : R * R) : R := (fst a - fst c) * (snd b - snd c) - (fst b - fst c) * (snd a - snd c).
(** positive when the line cuts the circle *)
Definition cuts (c : R * R) (r : R) (a b : R * R) : R := r * r * gap2 a b - area2 c a b * area2 c a b.

Lemma band_mul x y a b c d : p2 a <= x <= p2 b -> p2 c <= y <= p2 d -> p2 (a + c) <= x * y <= p2 (b + d).
Proof.
  intros X Y. pose proof (p2_pos a). pose proof (p2_pos c). rewrite !p2_add. split; apply Rmult_le_compat; lra.
Qed.
Lemma above_square x : valid x -> above (nmul x x).
Proof.
  intros (F & _). cbn [nmul FNum]. destruct x as [[]|[]| |[] m e]; try discriminate F; cbn [SFmul xorb above]; try exact I; apply above_round.
Qed.
Section Cross.
  Context (top bot : point float) (cx cy r : float) (S : R).
  Context (Vtx : valid (fst top)) (Vty : valid (snd top)) (Vbx : valid (fst bot)) (Vby : valid (snd bot)) (Vcx : valid cx) (Vcy : valid cy) (Vr : valid r).
  Context (BS : p2 (-50) <= S <= p2 100) (Btx : Rabs (FR (fst top)) + Rabs (FR cx) <= S) (Bty : Rabs (FR (snd top)) + Rabs (FR cy) <= S).
  Context (Bbx : Rabs (FR (fst bot)) + Rabs (FR cx) <= S) (Bby : Rabs (FR (snd bot)) + Rabs (FR cy) <= S) (Br : Rabs (FR r) <= S).
  Let Tx := FR (fst top) - FR cx. Let Ty := FR (snd top) - FR cy. Let Bx := FR (fst bot) - FR cx. Let By := FR (snd bot) - FR cy.
  Let dX := Bx - Tx. Let dY := By - Ty. Let L := dX * dX + dY * dY. Let A := Tx * By - Bx * Ty. Let Q := FR r * FR r * L - A * A.
  Let S2 := S * S. Let S3 := S2 * S. Let S4 := S2 * S2.
  Let tx := nsub (fst top) cx. Let ty := nsub (snd top) cy. Let bx := nsub (fst bot) cx. Let by_ := nsub (snd bot) cy.
  Let dx := nsub bx tx. Let dy := nsub by_ ty. Let dr := nsqrt (nadd (nsq dx) (nsq dy)).
  Let D := nsub (nmul tx by_) (nmul bx ty). Let disc := nsub (nabs (nmul (nsq r) (nsq dr))) (nabs (nsq D)).

  Lemma bands : (p2 (-100) <= S2 <= p2 200) /\ (p2 (-150) <= S3 <= p2 300) /\ (p2 (-200) <= S4 <= p2 400).
  Proof.
    assert (B2 : p2 (-50 + -50) <= S2 <= p2 (100 + 100)) by now apply band_mul. split; [exact B2|].
    split; [exact (band_mul _ _ _ _ _ _ B2 BS)|exact (band_mul _ _ _ _ _ _ B2 B2)].
  Qed.
  Lemma S_pos : 0 < S /\ 0 < S2 /\ 0 < S3 /\ 0 < S4.
  Proof. pose proof bands as (B2 & B3 & B4). pose proof (p2_pos (-50)). pose proof (p2_pos (-100)). pose proof (p2_pos (-150)). pose proof (p2_pos (-200)). lra. Qed.
  Lemma huge g : g <= p2 500 -> g <= vast.
  Proof. intros H. apply Rle_trans with (1 := H). apply p2_le. lia. Qed.
  Lemma p2_16 e : 16 * p2 e = p2 (4 + e).
  Proof. rewrite p2_add, (p2_IZR 4) by lia. reflexivity. Qed.
  Lemma bulky g e : p2 e <= g -> (-500 <= e)%Z -> eta <= u * g.
  Proof.
    intros H E. apply Rle_trans with (u * p2 e); [|apply Rmult_le_compat_l; [left; apply u_pos|exact H]]. unfold u, eta. rewrite <- p2_add. apply p2_le. lia.
  Qed.
  Lemma coords : about tx Tx S 2 0 /\ about ty Ty S 2 0 /\ about bx Bx S 2 0 /\ about by_ By S 2 0.
  Proof.
    assert (C : forall a c, valid a -> valid c -> Rabs (FR a) + Rabs (FR c) <= S -> about (nsub a c) (FR a - FR c) S 2 0).
    { intros a c Va Vc B. pose proof (Rabs_pos (FR a)). pose proof (Rabs_pos (FR c)). pose proof BS as BS'. assert (SV : S <= vast) by (apply huge; apply Rle_trans with (1 := proj2 BS); apply p2_le; lia).
      pose proof (plus_close true _ _ _ _ _ _ 0 0 (about_exact a Va) (about_exact c Vc) ltac:(unfold many; lra) ltac:(unfold many; lra) ltac:(lra) ltac:(lra)) as P. cbv iota in P.
      rewrite Rmax_left in P by lra. apply about_gross with (g' := S) in P; [|lra|exact B]. apply about_weaken with (1 := P); lra. }
    split; [|split; [|split]]; apply C; assumption.
  Qed.
  Lemma steps : about dx dX (2 * S) 4 0 /\ about dy dY (2 * S) 4 0.
  Proof.
    destruct coords as (T1 & T2 & B1 & B2). assert (SV : S <= vast) by (apply huge; apply Rle_trans with (1 := proj2 BS); apply p2_le; lia).
    assert (C : forall a c va vc, about a va S 2 0 -> about c vc S 2 0 -> about (nsub a c) (va - vc) (2 * S) 4 0).
    { intros a c va vc X Y. pose proof (plus_close true _ _ _ _ _ _ 2 2 X Y ltac:(unfold many; lra) ltac:(unfold many; lra) SV SV) as P. cbv iota in P.
      rewrite Rmax_left in P by lra. replace (2 * S) with (S + S) by ring. apply about_weaken with (1 := P); lra. }
    split; apply C; assumption.
  Qed.
  Lemma small_sizes : 16 * S2 <= vast /\ 16 * S3 <= vast /\ 16 * S4 <= vast /\ eta <= u * S2 /\ eta <= u * S3 /\ eta <= u * S4 /\ eta <= u * S /\ eta <= u * u.
  Proof.
    destruct bands as (B2 & B3 & B4).
    assert (C : forall g a b, p2 a <= g <= p2 b -> (b <= 400)%Z -> (-500 <= a)%Z -> 16 * g <= vast /\ eta <= u * g).
    { intros g a b B H1 H2. split; [|apply bulky with a; [apply B|assumption]]. apply huge. apply Rle_trans with (16 * p2 b); [lra|]. rewrite p2_16. apply p2_le. lia. }
    destruct (C _ _ _ B2 ltac:(lia) ltac:(lia)), (C _ _ _ B3 ltac:(lia) ltac:(lia)), (C _ _ _ B4 ltac:(lia) ltac:(lia)), (C _ _ _ BS ltac:(lia) ltac:(lia)).
    repeat (split; [assumption|]). unfold u, eta. rewrite <- p2_add. apply p2_le. lia.
  Qed.
  Lemma L_pos : 0 <= L <= 8 * S2.
  Proof.
    destruct steps as ((_ & X & _) & (_ & Y & _)). destruct S_pos as (S0 & _).
    assert (C : forall x, Rabs x <= 2 * S -> 0 <= x * x <= 4 * S2).
    { intros x B. split; [apply Rle_0_sqr|]. replace (x * x) with (Rabs x * Rabs x) by (rewrite <- Rabs_mult; apply Rabs_right, Rle_ge, Rle_0_sqr).
      replace (4 * S2) with (2 * S * (2 * S)) by (unfold S2; ring). apply Rmult_le_compat; try apply Rabs_pos; assumption. }
    pose proof (C dX X). pose proof (C dY Y). unfold L. lra.
  Qed.
  Lemma length_close : about (nsq dr) L (8 * S2) 24 0.
  Proof.
    destruct steps as (X & Y). destruct small_sizes as (V2 & V3 & V4 & E2 & E3 & E4 & E1 & EU). destruct S_pos as (S0 & P2 & P3 & P4). pose proof u_pos as U.
    assert (US2 : 0 <= u * S2) by (apply Rmult_le_pos; lra).
    assert (G : 2 * S * (2 * S) = 4 * S2) by (unfold S2; ring).
    assert (C : forall a v, about a v (2 * S) 4 0 -> about (nsq a) (v * v) (4 * S2) 15 0).
    { intros a v X'. pose proof (times_close _ _ _ _ _ _ 4 4 X' X' ltac:(unfold many; lra) ltac:(unfold many; lra) ltac:(rewrite G; lra) ltac:(rewrite G; lra)) as P.
      rewrite G in P. apply about_weaken with (1 := P); lra. }
    pose proof (plus_close false _ _ _ _ _ _ 15 15 (C _ _ X) (C _ _ Y) ltac:(unfold many; lra) ltac:(unfold many; lra) ltac:(lra) ltac:(lra)) as P. cbv iota in P.
    rewrite Rmax_left in P by lra. replace (4 * S2 + 4 * S2) with (8 * S2) in P by ring.
    assert (NN : 0 <= FR (nadd (nsq dx) (nsq dy))).
    { destruct (C _ _ X) as (VX & _), (C _ _ Y) as (VY & _). apply above_FR. apply above_add; [unfold nsq; apply above_square; apply X|unfold nsq; apply above_square; apply Y]. }
    destruct (square_root _ _ _ _ P NN ltac:(unfold many; lra) ltac:(lra) ltac:(lra) EU) as (R1 & _). apply about_weaken with (1 := R1); lra.
  Qed.
  Lemma area_close : about D A (2 * S2) 11 0.
  Proof.
    destruct coords as (T1 & T2 & B1 & B2). destruct small_sizes as (V2 & V3 & V4 & E2 & E3 & E4 & E1 & EU). destruct S_pos as (S0 & P2 & P3 & P4).
    assert (C : forall a c va vc, about a va S 2 0 -> about c vc S 2 0 -> about (nmul a c) (va * vc) S2 9 0).
    { intros a c va vc X Y. pose proof (times_close _ _ _ _ _ _ 2 2 X Y ltac:(unfold many; lra) ltac:(unfold many; lra) ltac:(fold S2; lra) ltac:(fold S2; lra)) as P.
      apply about_weaken with (1 := P); lra. }
    pose proof (plus_close true _ _ _ _ _ _ 9 9 (C _ _ _ _ T1 B2) (C _ _ _ _ B1 T2) ltac:(unfold many; lra) ltac:(unfold many; lra) ltac:(lra) ltac:(lra)) as P. cbv iota in P.
    rewrite Rmax_left in P by lra. replace (2 * S2) with (S2 + S2) by ring. apply about_weaken with (1 := P); lra.
  Qed.
  Lemma disc_close : about disc Q (S2 * S2 * 12) 38 0.
  Proof.
    destruct small_sizes as (V2 & V3 & V4 & E2 & E3 & E4 & E1 & EU). destruct S_pos as (S0 & P2 & P3 & P4). pose proof u_pos as U.
    pose proof length_close as CL. pose proof area_close as CA. pose proof L_pos as L0.
    assert (US4 : 0 <= u * S4) by (apply Rmult_le_pos; lra).
    assert (CR : about (nsq r) (FR r * FR r) S2 3 0).
    { pose proof (exact_close r S Vr Br) as X. pose proof (times_close _ _ _ _ _ _ 0 0 X X ltac:(unfold many; lra) ltac:(unfold many; lra) ltac:(fold S2; lra) ltac:(fold S2; lra)) as P.
      apply about_weaken with (1 := P); lra. }
    assert (G1 : S2 * (8 * S2) = 8 * S4) by (unfold S4; ring). assert (G2 : 2 * S2 * (2 * S2) = 4 * S4) by (unfold S4; ring).
    pose proof (times_close _ _ _ _ _ _ 3 24 CR CL ltac:(unfold many; lra) ltac:(unfold many; lra) ltac:(rewrite G1; lra) ltac:(rewrite G1; lra)) as X1. rewrite G1 in X1.
    pose proof (times_close _ _ _ _ _ _ 11 11 CA CA ltac:(unfold many; lra) ltac:(unfold many; lra) ltac:(rewrite G2; lra) ltac:(rewrite G2; lra)) as X2. rewrite G2 in X2.
    apply abs_close in X1. apply abs_close in X2. rewrite Rabs_right in X1 by (apply Rle_ge, Rmult_le_pos; [apply Rle_0_sqr|lra]).
    rewrite Rabs_right in X2 by (apply Rle_ge, Rle_0_sqr).
    pose proof (plus_close true _ _ _ _ _ _ _ _ X1 X2 ltac:(unfold many; lra) ltac:(unfold many; lra) ltac:(lra) ltac:(lra)) as P. cbv iota in P.
    rewrite Rmax_right in P by lra. replace (S2 * S2 * 12) with (8 * S4 + 4 * S4) by (unfold S4; ring). apply about_weaken with (1 := P); lra.
  Qed.

  Lemma disc_none : Q < - (500 * u * S4) -> cirle_line_intersection top bot cx cy r = Ok [].
  Proof.
    intros H. destruct disc_close as (V & _ & E). unfold cirle_line_intersection. cbv zeta. fold tx ty bx by_. fold dx dy. fold dr D. fold disc.
    destruct (nz_FR 0 eq_refl) as (V0 & E0). cbn [nltb FNum]. rewrite ltb_FR, E0 by assumption. apply abs_span in E.
    unfold Rltb. destruct (Rlt_dec (FR disc) 0) as [|N]; [reflexivity|]. destruct S_pos as (_ & _ & _ & P4). pose proof u_pos as U.
    assert (0 <= u * S4) by (apply Rmult_le_pos; lra). fold S4 in E. lra.
  Qed.

  Context (HL : 1000 * u * S2 <= L) (HQ : 1000 * u * S4 <= Q).
  Let w := sqrt Q.
  Let K := 228 * (S2 / w).
  Let sd := nsqrt disc.
  Lemma Q_pos : 0 < L /\ 0 < Q <= 9 * (S2 * S2) /\ 0 < w /\ w * w = Q /\ / 3 <= S2 / w <= 10000000.
  Proof.
    destruct S_pos as (S0 & P2 & P3 & P4). pose proof u_pos as U. assert (0 < u * S2) by (apply Rmult_lt_0_compat; lra). assert (0 < u * S4) by (apply Rmult_lt_0_compat; lra).
    pose proof L_pos as L0. split; [lra|].
    assert (R2 : 0 <= FR r * FR r <= S2).
    { split; [apply Rle_0_sqr|]. replace (FR r * FR r) with (Rabs (FR r) * Rabs (FR r)) by (rewrite <- Rabs_mult; apply Rabs_right, Rle_ge, Rle_0_sqr).
      apply Rmult_le_compat; try apply Rabs_pos; assumption. }
    assert (RL : FR r * FR r * L <= S2 * (8 * S2)) by (apply Rmult_le_compat; lra).
    assert (QQ : 0 < Q <= 8 * S4) by (split; [lra|]; unfold Q; pose proof (Rle_0_sqr A) as Z; unfold Rsqr in Z; unfold S4; lra).
    fold S4. split; [lra|]. assert (w0 : 0 < w) by (apply sqrt_lt_R0; lra). assert (ww : w * w = Q) by (apply sqrt_sqrt; lra).
    split; [exact w0|]. split; [exact ww|]. split.
    - apply (Rmult_le_reg_r w); [exact w0|]. unfold Rdiv. rewrite Rmult_assoc, Rinv_l by lra.
      assert (w <= 3 * S2); [|lra]. apply Rsqr_incr_0; unfold Rsqr; [|lra|lra]. rewrite ww. replace (3 * S2 * (3 * S2)) with (9 * S4) by (unfold S4; ring). lra.
    - apply (Rmult_le_reg_r w); [exact w0|]. unfold Rdiv. rewrite Rmult_assoc, Rinv_l by lra.
      apply Rsqr_incr_0; unfold Rsqr; [|lra|lra]. replace (10000000 * w * (10000000 * w)) with (100000000000000 * Q) by (rewrite <- ww; ring). fold S4.
      apply Rle_trans with (100000000000000 * (1000 * u * S4)); [|lra]. rewrite u_val. rewrite !Rmult_1_r. change (S2 * S2) with S4. lra.
  Qed.
  Lemma K_range : 0 <= K <= 2280000000 /\ 3 * K >= 228.
  Proof. destruct Q_pos as (_ & _ & _ & _ & B). unfold K. lra. Qed.
  Lemma chord_close : 0 < FR disc /\ about sd w (3 * S2) K 0.
  Proof.
    destruct small_sizes as (V2 & V3 & V4 & E2 & E3 & E4 & E1 & EU). destruct S_pos as (S0 & P2 & P3 & P4). destruct Q_pos as (L0 & Q0 & _).
    assert (SF : S2 <= fair) by (destruct bands as (B2 & _); apply Rle_trans with (1 := proj2 B2); apply p2_le; lia).
    assert (H2 : 2 * (38 * u * (S2 * S2 * 12)) <= Q). { fold S4. assert (0 <= u * S4) by (apply Rmult_le_pos; [left; apply u_pos|lra]). lra. }
    destruct (root_close disc Q S2 38 disc_close P2 ltac:(unfold many; lra) (proj1 Q0) H2 (proj2 Q0) E2 SF ltac:(lra)) as (P & C).
    split; [exact P|]. apply about_weaken with (1 := C); [unfold K; fold w; lra|lra].
  Qed.
  Lemma num_close sg f g : (sg = 1 \/ sg = -1) -> about f g (2 * S) 7 0 -> forall pa pv, about pa pv (4 * S3) 31 0 ->
    forall sub : bool, about ((if sub then nsub else nadd) pa (nmul f sd)) (pv + (if sub then -1 else 1) * g * w) (10 * S3) (K + 33) 0.
  Proof.
    intros _ F pa pv PA sub. destruct small_sizes as (V2 & V3 & V4 & E2 & E3 & E4 & E1 & EU). destruct S_pos as (S0 & P2 & P3 & P4).
    destruct chord_close as (_ & C). destruct K_range as (K0 & _). pose proof u_pos as U. assert (0 <= u * S3) by (apply Rmult_le_pos; lra).
    assert (G : 2 * S * (3 * S2) = 6 * S3) by (unfold S3; ring).
    pose proof (times_close _ _ _ _ _ _ 7 K F C ltac:(unfold many; lra) ltac:(unfold many; lra) ltac:(rewrite G; lra) ltac:(rewrite G; lra)) as P. rewrite G in P.
    pose proof (plus_close sub _ _ _ _ _ _ 31 _ PA P ltac:(unfold many; lra) ltac:(unfold many; lra) ltac:(lra) ltac:(lra)) as N.
    assert (M : Rmax 31 (2 * 7 + K + 3) <= K + 31) by (apply Rmax_lub; lra).
    replace (10 * S3) with (4 * S3 + 6 * S3) by ring.
    replace (pv + (if sub then -1 else 1) * g * w) with (if sub then pv - g * w else pv + g * w) by (destruct sub; ring).
    apply about_weaken with (1 := N); lra.
  Qed.
  Lemma coord_close a va c : about a va (10 * S3) (K + 33) 0 -> Rabs (va / L) <= S -> valid c -> Rabs (FR c) <= S ->
    FR (nsq dr) <> 0 /\ valid (nadd (ndiv a (nsq dr)) c) /\ Rabs (FR (nadd (ndiv a (nsq dr)) c) - (va / L + FR c)) <= p2 (-40) * (S2 * S3) / (L * w).
  Proof.
    intros CA Z Vc Bc. destruct small_sizes as (V2 & V3 & V4 & E2 & E3 & E4 & E1 & EU). destruct S_pos as (S0 & P2 & P3 & P4). pose proof u_pos as U.
    destruct Q_pos as (L0 & Q0 & w0 & ww & B). destruct K_range as (K0 & K3). pose proof L_pos as LL. assert (US : u <= / 1000000) by (rewrite u_val; lra).
    assert (IL : 0 < / L) by now apply Rinv_0_lt_compat.
    set (t := u * (S3 / L)). assert (t0 : 0 < t) by (unfold t; apply Rmult_lt_0_compat; [exact U|]; apply Rmult_lt_0_compat; assumption).
    assert (St : u * S <= 8 * t).
    { unfold t. replace (8 * (u * (S3 / L))) with (u * (8 * (S3 / L))) by ring. apply Rmult_le_compat_l; [lra|].
      apply (Rmult_le_reg_r L); [exact L0|]. replace (8 * (S3 / L) * L) with (8 * S3) by (field; lra). replace (8 * S3) with (S * (8 * S2)) by (unfold S3; ring). apply Rmult_le_compat_l; lra. }
    assert (tS : 1000 * t <= S).
    { unfold t. apply (Rmult_le_reg_r L); [exact L0|]. replace (1000 * (u * (S3 / L)) * L) with (1000 * u * S2 * S) by (unfold S3; field; lra).
      rewrite (Rmult_comm S L). apply Rmult_le_compat_r; lra. }
    pose proof (over_close a (nsq dr) va L (10 * S3) (8 * S2) (K + 33) 24 S CA length_close ltac:(lra) ltac:(lra) L0) as O. cbv zeta in O.
    assert (EQ : 2 * ((K + 33) * u * (10 * S3) + S * (24 * u * (8 * S2))) / L = (20 * K + 1044) * t) by (unfold t, S3; field; lra).
    rewrite EQ in O. set (e := (20 * K + 1044) * t) in *.
    assert (KT : e <= 100000000000 * t) by (apply Rmult_le_compat_r; lra). assert (e0 : 0 <= e) by (apply Rmult_le_pos; lra).
    assert (SV : 1000000000 * S <= vast).
    { apply Rle_trans with (p2 30 * p2 100); [apply Rmult_le_compat; try lra; rewrite p2_IZR by lia; apply IZR_le; vm_compute; discriminate|]. rewrite <- p2_add. apply p2_le. lia. }
    destruct O as (NZ & Vd & Ed); [assert (0 < u * S2) by (apply Rmult_lt_0_compat; lra); lra|exact Z|lra|exact E1|].
    split; [exact NZ|]. set (d := ndiv a (nsq dr)) in *. set (x := va / L) in *.
    assert (u * e <= / 1000000 * e) by (apply Rmult_le_compat_r; lra).
    assert (BD : Rabs (FR d + FR c) <= 4 * S + 2 * e).
    { apply Rle_trans with (1 := Rabs_triang _ _). assert (Rabs (FR d) <= S + (e + u * (2 * S + e))); [|assert (u * S <= / 1000000 * S) by (apply Rmult_le_compat_r; lra); lra].
      replace (FR d) with (x + (FR d - x)) by ring. apply Rle_trans with (1 := Rabs_triang _ _). lra. }
    pose proof top_vast. pose proof vast_big. destruct (add_near d c Vd Vc) as (Va & Na); [lra|]. split; [exact Va|]. cbn [nadd FNum].
    assert (NA : Rabs (FR (SFadd prec emax d c) - (FR d + FR c)) <= u * (4 * S + 2 * e)) by (apply Rle_trans with (1 := Na); apply Rmult_le_compat_l; lra).
    assert (T : p2 (-40) * (S2 * S3) / (L * w) = 8192 * t * (S2 / w)).
    { replace (p2 (-40)) with (8192 * u) by (unfold u; replace (-40)%Z with (13 + -53)%Z by lia; rewrite p2_add; f_equal; rewrite (p2_IZR 13) by lia; reflexivity).
      unfold t. field. lra. }
    rewrite T. apply Rle_trans with (1.00001 * e + 6 * (u * S)); [apply abs_span in NA; apply abs_span in Ed; apply Rabs_le; lra|].
    assert (FE : 1.00001 * (20 * K + 1044) + 48 <= 8192 * (S2 / w)) by (unfold K; lra).
    apply Rle_trans with ((1.00001 * (20 * K + 1044) + 48) * t); [unfold e; lra|].
    replace (8192 * t * (S2 / w)) with (8192 * (S2 / w) * t) by ring. apply Rmult_le_compat_r; lra.
  Qed.
  (** the exact crossing on the side [t] of the foot of the perpendicular *)
  Definition crossing (t : R) : R * R :=
    ((A * dY + t * dX * w) / L + FR cx, (- (A * dX) + t * dY * w) / L + FR cy).
  Lemma crossing_on t : t = 1 \/ t = -1 -> on_circle (FR cx) (FR cy) (FR r) (crossing t) /\ on_line (FRp top) (FRp bot) (crossing t).
  Proof.
    intros T. destruct Q_pos as (L0 & Q0 & w0 & ww & B). assert (tt : t * t = 1) by (destruct T as [-> | ->]; ring). split.
    - unfold on_circle, crossing. cbn [fst snd]. rewrite !(fun a c => ltac:(ring) : a + c - c = a).
      replace ((A * dY + t * dX * w) / L * ((A * dY + t * dX * w) / L) + (- (A * dX) + t * dY * w) / L * ((- (A * dX) + t * dY * w) / L))
        with ((A * A + t * t * (w * w)) * (dX * dX + dY * dY) / (L * L)) by (field; lra).
      fold L. rewrite tt, ww. unfold Q. field. lra.
    - unfold on_line, crossing, FRp. cbn [fst snd].
      assert (E : (A * dY + t * dX * w) / L * dY - (- (A * dX) + t * dY * w) / L * dX = A).
      { transitivity (A * (dX * dX + dY * dY) / L); [field; lra|fold L; field; lra]. }
      replace (FR (snd bot) - FR (snd top)) with dY by (unfold dY, By, Ty; ring). replace (FR (fst bot) - FR (fst top)) with dX by (unfold dX, Bx, Tx; ring).
      set (X := (A * dY + t * dX * w) / L) in *. set (Y := (- (A * dX) + t * dY * w) / L) in *.
      replace (X + FR cx - FR (fst top)) with (X - Tx) by (unfold Tx; ring). replace (Y + FR cy - FR (snd top)) with (Y - Ty) by (unfold Ty; ring).
      assert (Tx * dY - Ty * dX = A) by (unfold A, dY, dX; ring). lra.
  Qed.
  Lemma crossing_size t : t = 1 \/ t = -1 -> Rabs ((A * dY + t * dX * w) / L) <= S /\ Rabs ((- (A * dX) + t * dY * w) / L) <= S.
  Proof.
    intros T. destruct (crossing_on t T) as (C & _). unfold on_circle, crossing in C. cbn [fst snd] in C. rewrite !(fun a c => ltac:(ring) : a + c - c = a) in C.
    set (X := (A * dY + t * dX * w) / L) in *. set (Y := (- (A * dX) + t * dY * w) / L) in *. pose proof (Rle_0_sqr X) as X0. pose proof (Rle_0_sqr Y) as Y0. unfold Rsqr in *.
    assert (P : forall z, z * z <= FR r * FR r -> Rabs z <= S).
    { intros z Z. apply Rle_trans with (2 := Br). apply Rsqr_le_abs_0. exact Z. }
    split; apply P; lra.
  Qed.
  Lemma crossing_other : crossing 1 <> crossing (-1).
  Proof.
    intros E. destruct Q_pos as (L0 & Q0 & w0 & ww & B). unfold crossing in E. injection E as E1 E2.
    assert (Z1 : dX * w = 0). { apply (Rmult_eq_reg_r (2 / L)); [|apply Rgt_not_eq; apply Rmult_lt_0_compat; [lra|now apply Rinv_0_lt_compat]].
      replace (dX * w * (2 / L)) with ((A * dY + 1 * dX * w) / L - (A * dY + -1 * dX * w) / L) by (field; lra). lra. }
    assert (Z2 : dY * w = 0). { apply (Rmult_eq_reg_r (2 / L)); [|apply Rgt_not_eq; apply Rmult_lt_0_compat; [lra|now apply Rinv_0_lt_compat]].
      replace (dY * w * (2 / L)) with ((- (A * dX) + 1 * dY * w) / L - (- (A * dX) + -1 * dY * w) / L) by (field; lra). lra. }
    apply Rmult_integral in Z1, Z2. assert (dX = 0) by lra. assert (dY = 0) by lra. unfold L in L0. rewrite H, H0 in L0. lra.
  Qed.
  Lemma crossing_all p : on_circle (FR cx) (FR cy) (FR r) p -> on_line (FRp top) (FRp bot) p -> p = crossing 1 \/ p = crossing (-1).
  Proof.
    intros C O. destruct Q_pos as (L0 & Q0 & w0 & ww & B). destruct p as (x, y). unfold on_circle, on_line, FRp in *. cbn [fst snd] in *.
    set (X := x - FR cx) in *. set (Y := y - FR cy) in *.
    assert (E : X * dY - Y * dX = A).
    { replace (FR (snd bot) - FR (snd top)) with dY in O by (unfold dY, By, Ty; ring). replace (FR (fst bot) - FR (fst top)) with dX in O by (unfold dX, Bx, Tx; ring).
      replace (x - FR (fst top)) with (X - Tx) in O by (unfold X, Tx; ring). replace (y - FR (snd top)) with (Y - Ty) in O by (unfold Y, Ty; ring).
      assert (Tx * dY - Ty * dX = A) by (unfold A, dY, dX; ring). lra. }
    set (s := X * dX + Y * dY).
    assert (SS : s * s = w * w). { rewrite ww. unfold Q. rewrite <- C, <- E. unfold s, L. ring. }
    assert (EX : X = (A * dY + s * dX) / L). { rewrite <- E. unfold s, L. field. fold L. lra. }
    assert (EY : Y = (- (A * dX) + s * dY) / L). { rewrite <- E. unfold s, L. field. fold L. lra. }
    assert (SG : s = w \/ s = - w). { apply Rsqr_eq. exact SS. }
    assert (x = X + FR cx) by (unfold X; ring). assert (y = Y + FR cy) by (unfold Y; ring).
    destruct SG as [SG|SG]; [left|right]; unfold crossing; rewrite SG in EX, EY; f_equal; [rewrite H, EX|rewrite H0, EY|rewrite H, EX|rewrite H0, EY]; field; lra.
  Qed.
  Let near_point (p : point float) (q : R * R) : Prop :=
    valid (fst p) /\ valid (snd p) /\ Rabs (FR (fst p) - fst q) <= p2 (-40) * (S2 * S3) / (L * w) /\ Rabs (FR (snd p) - snd q) <= p2 (-40) * (S2 * S3) / (L * w).
  Lemma cross_close : exists p1 p2 t, cirle_line_intersection top bot cx cy r = Ok [p1; p2] /\ (t = 1 \/ t = -1) /\
    near_point p1 (crossing t) /\ near_point p2 (crossing (- t)).
  Proof.
    destruct small_sizes as (V2 & V3 & V4 & E2 & E3 & E4 & E1 & EU). destruct S_pos as (S0 & P2 & P3 & P4). pose proof u_pos as U.
    destruct chord_close as (DP & CC). destruct steps as (CX & CY). pose proof area_close as CA. pose proof disc_close as (VD & _).
    destruct (nz_FR 0 eq_refl) as (V0 & E0). assert (US3 : 0 <= u * S3) by (apply Rmult_le_pos; lra).
    set (m := (if nltb dy (nz 0) then nz (-1) else nz 1) : float).
    assert (M : exists t, (t = 1 \/ t = -1) /\ about m t 1 0 0 /\ about (nabs dy) (t * dY) (2 * S) 4 0).
    { destruct (abs_FR dy (proj1 CY)) as (VA & EA). unfold m. cbn [nltb FNum]. rewrite ltb_FR, E0 by (apply CY || assumption). unfold Rltb.
      destruct CY as (VY & GY & EY). destruct (Rlt_dec (FR dy) 0) as [N|N].
      - exists (-1). split; [now right|]. split.
        + destruct (nz_FR (-1) eq_refl) as (V1 & F1). rewrite <- F1. apply exact_close; [exact V1|]. rewrite F1. rewrite Rabs_left; lra.
        + split; [exact VA|]. replace (-1 * dY) with (- dY) by ring. rewrite Rabs_Ropp. split; [exact GY|]. rewrite EA, (Rabs_left (FR dy)) by lra.
          replace (- FR dy - - dY) with (- (FR dy - dY)) by ring. rewrite Rabs_Ropp. exact EY.
      - exists 1. split; [now left|]. split.
        + destruct (nz_FR 1 eq_refl) as (V1 & F1). rewrite <- F1. apply exact_close; [exact V1|]. rewrite F1. rewrite Rabs_right; lra.
        + split; [exact VA|]. replace (1 * dY) with dY by ring. split; [exact GY|]. rewrite EA, (Rabs_right (FR dy)) by lra. exact EY. }
    destruct M as (t & T & CM & CN).
    assert (CMX : about (nmul m dx) (t * dX) (2 * S) 7 0).
    { assert (SV : S <= p2 100) by apply BS. assert (2 * S <= vast) by (apply huge; apply Rle_trans with (16 * p2 100); [pose proof (p2_pos 100); lra|rewrite p2_16; apply p2_le; lia]).
      pose proof (times_close _ _ _ _ _ _ 0 4 CM CX ltac:(unfold many; lra) ltac:(unfold many; lra) ltac:(lra) ltac:(rewrite Rmult_1_l; assert (0 < u * S) by (apply Rmult_lt_0_compat; lra); lra)) as P.
      rewrite Rmult_1_l in P. apply about_weaken with (1 := P); lra. }
    assert (CN7 : about (nabs dy) (t * dY) (2 * S) 7 0) by (apply about_weaken with (1 := CN); lra).
    assert (G : 2 * S2 * (2 * S) = 4 * S3) by (unfold S3; ring).
    assert (PP : forall a v, about a v (2 * S) 4 0 -> about (nmul D a) (A * v) (4 * S3) 29 0).
    { intros a v X. pose proof (times_close _ _ _ _ _ _ 11 4 CA X ltac:(unfold many; lra) ltac:(unfold many; lra) ltac:(rewrite G; lra) ltac:(rewrite G; lra)) as P. rewrite G in P.
      apply about_weaken with (1 := P); lra. }
    pose proof (PP _ _ CX) as PX. pose proof (PP _ _ CY) as PY.
    assert (PXn : about (nsub (nz 0) (nmul D dx)) (- (A * dX)) (4 * S3) 31 0).
    { pose proof (plus_close true _ _ _ _ _ _ 0 29 about_zero PX ltac:(unfold many; lra) ltac:(unfold many; lra) ltac:(pose proof vast_big; lra) ltac:(lra)) as P. cbv iota in P.
      rewrite Rmax_right in P by lra. rewrite Rplus_0_l in P. replace (- (A * dX)) with (0 - A * dX) by ring. apply about_weaken with (1 := P); lra. }
    assert (PY31 : about (nmul D dy) (A * dY) (4 * S3) 31 0) by (apply about_weaken with (1 := PY); lra).
    assert (Bcx : Rabs (FR cx) <= S) by (pose proof (Rabs_pos (FR (fst top))); lra). assert (Bcy : Rabs (FR cy) <= S) by (pose proof (Rabs_pos (FR (snd top))); lra).
    assert (T' : - t = 1 \/ - t = -1) by (destruct T as [-> | ->]; lra).
    destruct (crossing_size t T) as (X1 & Y1). destruct (crossing_size (- t) T') as (X2 & Y2).
    pose proof (num_close t _ _ T CMX _ _ PY31 false) as NX1. pose proof (num_close t _ _ T CMX _ _ PY31 true) as NX2.
    pose proof (num_close t _ _ T CN7 _ _ PXn false) as NY1. pose proof (num_close t _ _ T CN7 _ _ PXn true) as NY2. cbv iota in NX1, NX2, NY1, NY2.
    replace (A * dY + 1 * (t * dX) * w) with (A * dY + t * dX * w) in NX1 by ring. replace (A * dY + -1 * (t * dX) * w) with (A * dY + - t * dX * w) in NX2 by ring.
    replace (- (A * dX) + 1 * (t * dY) * w) with (- (A * dX) + t * dY * w) in NY1 by ring. replace (- (A * dX) + -1 * (t * dY) * w) with (- (A * dX) + - t * dY * w) in NY2 by ring.
    destruct (coord_close _ _ cx NX1 X1 Vcx Bcx) as (NZ & A1). destruct (coord_close _ _ cx NX2 X2 Vcx Bcx) as (_ & A2).
    destruct (coord_close _ _ cy NY1 Y1 Vcy Bcy) as (_ & A3). destruct (coord_close _ _ cy NY2 Y2 Vcy Bcy) as (_ & A4).
    unfold cirle_line_intersection. cbv zeta. fold tx ty bx by_. fold dx dy. fold dr D. fold disc. fold sd. fold m.
    assert (N1 : nltb disc (nz 0) = false) by (cbn [nltb FNum]; rewrite ltb_FR, E0 by assumption; unfold Rltb; destruct (Rlt_dec (FR disc) 0); [lra|reflexivity]).
    assert (N2 : neqb disc (nz 0) = false) by (cbn [neqb FNum]; rewrite eqb_FR, E0 by assumption; apply Reqb_false; lra).
    assert (N3 : forall a, pydiv a (nsq dr) = Ok (ndiv a (nsq dr))).
    { intros a. unfold pydiv. replace (neqb (nsq dr) (nz 0)) with false; [reflexivity|]. symmetry. cbn [neqb FNum]. rewrite eqb_FR, E0 by (apply length_close || assumption). apply Reqb_false. exact NZ. }
    rewrite N1, !N3. cbn [rbind]. rewrite N2. eexists _, _, t. split; [reflexivity|]. split; [exact T|]. unfold near_point, crossing. cbn [fst snd].
    split; (split; [tauto|]; split; [tauto|]; split; tauto).
  Qed.
End Cross.
