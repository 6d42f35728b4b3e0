(** * CircleNear: the computed places and bases of the slices against the exact ones
    (pyslope.py:1344-1370). *)
From Coq Require Import ZArith Reals Lra Lia Bool List SpecFloat.
From Verif Require Import Num FloatNum RealNum Py ListFacts Objects Slope Planes Analysis PlaneFacts SliceFacts RoundTheory NearFacts SumNear WeightNear.
Import ListNotations.
Local Open Scope R_scope.

Lemma div_about a b va ga k d : about a va ga k d -> valid b -> FR b <> 0 -> 0 <= k <= many -> 0 <= d ->
  (ga + d) / Rabs (FR b) <= vast ->
  about (ndiv a b) (va / FR b) (ga / Rabs (FR b)) (k + 2) (2 * d / Rabs (FR b) + eta).
Proof.
  intros A Vb Nb K D G. pose proof (about_size _ _ _ _ _ A) as Sa. destruct A as (Va & Ba & Ea).
  assert (G0 : 0 <= ga) by (pose proof (Rabs_pos va); lra).
  pose proof (Rabs_pos_lt (FR b) Nb) as B0. unfold Rdiv in *. assert (I0 : 0 < / Rabs (FR b)) by now apply Rinv_0_lt_compat.
  assert (IE : Rabs (/ FR b) = / Rabs (FR b)) by (now apply Rabs_inv).
  set (B := / Rabs (FR b)) in *.
  pose proof (few_u k K) as Fk. pose proof top_vast as TV. pose proof vast_big as VB. pose proof u_pos as U.
  assert (KG : 0 <= k * u * ga <= / 256 * ga).
  { split; [apply Rmult_le_pos; lra|]. apply Rmult_le_compat_r; lra. }
  assert (P : Rabs (FR a * / FR b) <= ga * B + (k * u * ga + d) * B).
  { rewrite Rabs_mult, IE, <- Rmult_plus_distr_r. apply Rmult_le_compat_r; lra. }
  assert (GB : 0 <= ga * B) by (apply Rmult_le_pos; lra). assert (DB : 0 <= d * B) by (apply Rmult_le_pos; lra).
  assert (KB : 0 <= k * u * ga * B <= / 256 * (ga * B)).
  { split; [apply Rmult_le_pos; lra|]. rewrite <- Rmult_assoc. apply Rmult_le_compat_r; lra. }
  destruct (div_near a b Va Vb Nb) as (V & N); [unfold Rdiv; lra|]. split; [exact V|].
  split; [rewrite Rabs_mult, IE; apply Rmult_le_compat_r; lra|].
  cbn [ndiv FNum]. set (r := FR (SFdiv prec emax a b)) in *. unfold Rdiv in N.
  replace (r - va * / FR b) with ((FR a - va) * / FR b + (r - FR a * / FR b)) by ring.
  apply Rle_trans with (1 := Rabs_triang _ _). rewrite Rabs_mult, IE.
  assert (E1 : Rabs (FR a - va) * B <= (k * u * ga + d) * B) by (apply Rmult_le_compat_r; lra).
  assert (E2 : Rabs (r - FR a * / FR b) <= u * (ga * B + (k * u * ga + d) * B) + eta).
  { apply Rle_trans with (1 := N). pose proof eta_pos. apply Rmax_lub.
    - assert (u * Rabs (FR a * / FR b) <= u * (ga * B + (k * u * ga + d) * B)) by (apply Rmult_le_compat_l; lra). lra.
    - assert (0 <= u * (ga * B + (k * u * ga + d) * B)) by (apply Rmult_le_pos; lra). lra. }
  assert (E3 : u * (k * u * ga * B) <= u * (ga * B)) by (apply Rmult_le_compat_l; lra).
  assert (E4 : u * (d * B) <= d * B) by (rewrite u_val; lra). lra.
Qed.

Lemma about_gross x v g k d g' : about x v g k d -> 0 <= k -> g <= g' -> about x v g' k d.
Proof.
  intros (V & G & E) K L. split; [exact V|]. split; [lra|]. apply Rle_trans with (1 := E). pose proof u_pos.
  assert (0 <= k * u) by (apply Rmult_le_pos; lra). assert (k * u * g <= k * u * g') by (apply Rmult_le_compat_l; lra). lra.
Qed.
Lemma int_FR z : (0 < z <= 1000)%Z -> valid (nz z : float) /\ FR (nz z) = IZR z /\ 1 <= IZR z <= 1000.
Proof.
  intros L. destruct (nz_FR z) as (V & E); [lia|]. split; [exact V|]. split; [exact E|]. split; apply IZR_le; lia.
Qed.
Lemma over_int x v g k d z : about x v g k d -> (0 < z <= 1000)%Z -> 0 <= k <= 100 -> 0 <= d <= dust -> g <= fair ->
  about (ndiv x (nz z)) (v / IZR z) (g / IZR z) (k + 2) (3 * dust).
Proof.
  intros A Z K D G. destruct (int_FR z Z) as (V & E & B).
  pose proof (fair_vast). pose proof fair_big. pose proof dust_small. pose proof dust_pos. pose proof eta_dust. pose proof eta_pos.
  assert (FF : fair * 1 <= fair * fair) by (apply Rmult_le_compat_l; lra).
  assert (G0 : 0 <= g) by (destruct A as (_ & Q & _); pose proof (Rabs_pos v); lra).
  assert (I : 0 < / IZR z <= 1) by (split; [apply Rinv_0_lt_compat; lra|]; rewrite <- Rinv_1; apply Rinv_le_contravar; lra).
  pose proof (div_about x (nz z) v g k d A V) as Q. rewrite E, (Rabs_right (IZR z)) in Q by lra.
  assert (GD : (g + d) / IZR z <= vast).
  { unfold Rdiv. apply Rle_trans with ((g + d) * 1); [apply Rmult_le_compat_l; lra|]. lra. }
  specialize (Q ltac:(lra) ltac:(unfold many; lra) ltac:(lra) GD). apply about_weaken with (1 := Q); [lra|].
  assert (2 * d / IZR z <= 2 * dust * 1) by (unfold Rdiv; apply Rmult_le_compat; lra).
  assert (0 <= 10000000000000 * eta * fair) by (apply Rmult_le_pos; lra). lra.
Qed.
Lemma plus_about (sub : bool) a b va vb ga gb k c d e : about a va ga k d -> about b vb gb c e ->
  0 <= k <= 100 -> 0 <= c <= 100 -> 0 <= d <= 1 -> 0 <= e <= 1 -> ga <= fair -> gb <= fair ->
  about ((if sub then nsub else nadd) a b) (if sub then va - vb else va + vb) (ga + gb) (Rmax k c + 2) (2 * (d + e)).
Proof.
  intros A B K C D E Ga Gb. pose proof fair_vast. pose proof fair_big. pose proof vast_big.
  assert (FF : fair * 1 <= fair * fair) by (apply Rmult_le_compat_l; lra).
  assert (U : (1 + u) * (d + e) <= 2 * (d + e)) by (apply Rmult_le_compat_r; [lra|]; rewrite u_val; lra).
  destruct sub.
  - pose proof (sub_about _ _ _ _ _ _ _ _ _ _ A B ltac:(unfold many; lra) ltac:(unfold many; lra) ltac:(lra) ltac:(lra) ltac:(lra) ltac:(lra)) as Q.
    apply about_weaken with (1 := Q); lra.
  - pose proof (add_about _ _ _ _ _ _ _ _ _ _ A B ltac:(unfold many; lra) ltac:(unfold many; lra) ltac:(lra) ltac:(lra) ltac:(lra) ltac:(lra)) as Q.
    apply about_weaken with (1 := Q); lra.
Qed.

(** ** The places of the slices *)
Section Places.
  Context (xl xr : float) (n : Z) (N : (2 <= n <= 1000)%Z) (Vl : valid xl) (Vr : valid xr)
          (Bl : Rabs (FR xl) <= / 8 * fair) (Br : Rabs (FR xr) <= / 8 * fair).
  Let m : R := Rabs (FR xl) + Rabs (FR xr).
  Let w : R := FR xr - FR xl.
  Let half := ndiv (ndiv (nsub xr xl) (nz n)) (nz 2).
  Let first := nadd xl half.
  Let last := nsub xr half.
  Lemma dust_8 : 1000 * dust <= 1.
  Proof. pose proof dust_small. lra. Qed.
  Lemma n_pos : 2 <= IZR n <= 1000.
  Proof. split; apply IZR_le; lia. Qed.
  Lemma frac g : 0 <= g -> g / IZR n <= g.
  Proof.
    intros G. pose proof n_pos. unfold Rdiv. rewrite <- (Rmult_1_r g) at 2. apply Rmult_le_compat_l; [lra|].
    rewrite <- Rinv_1. apply Rinv_le_contravar; lra.
  Qed.
  Lemma m_pos : 0 <= m <= / 4 * fair.
  Proof. unfold m. pose proof (Rabs_pos (FR xl)). pose proof (Rabs_pos (FR xr)). lra. Qed.
  Lemma width_about : about (ndiv (nsub xr xl) (nz n)) (w / IZR n) m 4 (3 * dust).
  Proof.
    pose proof dust_pos as DP. pose proof dust_8 as D8. pose proof m_pos as Mp. pose proof n_pos as Np.
    pose proof (plus_about true _ _ _ _ _ _ _ _ _ _ (about_exact xr Vr) (about_exact xl Vl) ltac:(lra) ltac:(lra) ltac:(lra) ltac:(lra) ltac:(lra) ltac:(lra)) as A1.
    cbv iota in A1. rewrite Rmax_left in A1 by lra.
    assert (A1' : about (nsub xr xl) w m 2 0).
    { apply about_gross with (Rabs (FR xr) + Rabs (FR xl)); [|lra|unfold m; lra]. apply about_weaken with (1 := A1); lra. }
    pose proof (over_int _ _ _ _ _ n A1' ltac:(lia) ltac:(lra) ltac:(lra) ltac:(lra)) as A2.
    apply about_gross with (m / IZR n); [|lra|apply frac; lra]. apply about_weaken with (1 := A2); lra.
  Qed.
  Lemma half_about : about half (w / IZR n / 2) m 6 (20 * dust).
  Proof.
    pose proof dust_pos as DP. pose proof dust_8 as D8. pose proof m_pos as Mp. pose proof n_pos as Np.
    pose proof width_about as A2'.
    destruct (int_FR 2 ltac:(lia)) as (V2 & E2 & _).
    pose proof (div_about _ (nz 2) _ _ _ _ A2' V2) as A3. rewrite E2, (Rabs_right 2) in A3 by lra.
    pose proof fair_vast as FV. pose proof fair_big as FB. pose proof vast_big as VB.
    assert (FF : fair * 1 <= fair * fair) by (apply Rmult_le_compat_l; lra).
    specialize (A3 ltac:(lra) ltac:(unfold many; lra) ltac:(lra) ltac:(lra)).
    pose proof eta_dust as ED. pose proof eta_pos as EP. assert (0 <= 10000000000000 * eta * fair) by (apply Rmult_le_pos; lra).
    apply about_gross with (m / 2); [|lra|lra]. apply about_weaken with (1 := A3); lra.
  Qed.
  Lemma first_about : about first (FR xl + w / IZR n / 2) (2 * m) 8 (40 * dust).
  Proof.
    pose proof dust_pos as DP. pose proof dust_8 as D8. pose proof m_pos as Mp.
    pose proof (plus_about false _ _ _ _ _ _ _ _ _ _ (about_exact xl Vl) half_about ltac:(lra) ltac:(lra) ltac:(lra) ltac:(lra) ltac:(lra) ltac:(lra)) as A.
    cbv iota in A. rewrite Rmax_right in A by lra.
    apply about_gross with (Rabs (FR xl) + m); [|lra|unfold m; pose proof (Rabs_pos (FR xr)); lra]. apply about_weaken with (1 := A); lra.
  Qed.
  Lemma last_about : about last (FR xr - w / IZR n / 2) (2 * m) 8 (40 * dust).
  Proof.
    pose proof dust_pos as DP. pose proof dust_8 as D8. pose proof m_pos as Mp.
    pose proof (plus_about true _ _ _ _ _ _ _ _ _ _ (about_exact xr Vr) half_about ltac:(lra) ltac:(lra) ltac:(lra) ltac:(lra) ltac:(lra) ltac:(lra)) as A.
    cbv iota in A. rewrite Rmax_right in A by lra.
    apply about_gross with (Rabs (FR xr) + m); [|lra|unfold m; pose proof (Rabs_pos (FR xl)); lra]. apply about_weaken with (1 := A); lra.
  Qed.
  Lemma inner_about i : (0 <= i < n - 1)%Z ->
    about (nadd (nmul (nz i) (ndiv (nsub last first) (nz (n - 1)))) first)
          (FR xl + (IZR i + / 2) * (w / IZR n)) (6 * m) 16 (2000000 * dust).
  Proof.
    intros I. pose proof dust_pos as DP. pose proof dust_8 as D8. pose proof m_pos as Mp. pose proof n_pos as Np.
    pose proof fair_vast as FV. pose proof fair_big as FB. pose proof vast_big as VB. pose proof dust_small as DS.
    assert (FF : fair * 1 <= fair * fair) by (apply Rmult_le_compat_l; lra).
    pose proof eta_dust as ED. pose proof eta_pos as EP. assert (0 <= 10000000000000 * eta * fair) by (apply Rmult_le_pos; lra).
    pose proof (plus_about true _ _ _ _ _ _ _ _ _ _ last_about first_about ltac:(lra) ltac:(lra) ltac:(lra) ltac:(lra) ltac:(lra) ltac:(lra)) as A1.
    cbv iota in A1. rewrite Rmax_left in A1 by lra.
    set (z := (n - 1)%Z) in *. destruct (int_FR z ltac:(lia)) as (Vz & Ez & Bz).
    assert (Iz : 0 < / IZR z <= 1) by (split; [apply Rinv_0_lt_compat; lra|]; rewrite <- Rinv_1; apply Rinv_le_contravar; lra).
    pose proof (div_about _ (nz z) _ _ _ _ A1 Vz) as A2. rewrite Ez, (Rabs_right (IZR z)) in A2 by lra.
    assert (Q1 : (2 * m + 2 * m + 2 * (40 * dust + 40 * dust)) / IZR z <= vast).
    { unfold Rdiv. apply Rle_trans with ((2 * m + 2 * m + 2 * (40 * dust + 40 * dust)) * 1); [apply Rmult_le_compat_l; lra|]. lra. }
    specialize (A2 ltac:(lra) ltac:(unfold many; lra) ltac:(lra) Q1).
    set (st := ndiv (nsub last first) (nz z)) in *.
    destruct (nz_FR i ltac:(lia)) as (Vi & Ei).
    assert (Bi : 0 <= IZR i <= IZR z) by (split; apply IZR_le; lia).
    pose proof (mul_about _ (nz i) _ _ _ _ A2 Vi) as A3. rewrite Ei, (Rabs_right (IZR i)) in A3 by lra.
    set (g := (2 * m + 2 * m) / IZR z) in *. set (dd := 2 * (2 * (40 * dust + 40 * dust)) / IZR z + eta) in *.
    assert (Gi : 0 <= g * IZR i <= 4 * m).
    { assert (GZ : g * IZR z = 4 * m) by (unfold g; field; lra). assert (0 <= g) by (unfold g, Rdiv; apply Rmult_le_pos; lra).
      split; [apply Rmult_le_pos; lra|]. rewrite <- GZ. apply Rmult_le_compat_l; lra. }
    assert (Dd : 0 <= dd <= 321 * dust).
    { assert (0 <= 2 * (2 * (40 * dust + 40 * dust)) / IZR z <= 320 * dust * 1).
      { unfold Rdiv. split; [apply Rmult_le_pos; lra|]. apply Rmult_le_compat; lra. }
      unfold dd. lra. }
    assert (Di : 0 <= dd * IZR i <= 321 * dust * 1000) by (split; [apply Rmult_le_pos; lra|]; apply Rmult_le_compat; lra).
    specialize (A3 ltac:(unfold many; lra) ltac:(lra) ltac:(lra)).
    change (nmul st (nz i)) with (SFmul prec emax st (nz i)) in A3. rewrite mul_comm in A3.
    change (SFmul prec emax (nz i) st) with (nmul (nz i) st) in A3.
    pose proof (plus_about false _ _ _ _ _ _ _ _ _ _ A3 first_about ltac:(lra) ltac:(lra) ltac:(lra) ltac:(lra) ltac:(lra) ltac:(lra)) as A4.
    cbv iota in A4. rewrite Rmax_left in A4 by lra.
    replace (FR xl + (IZR i + / 2) * (w / IZR n)) with
      ((FR xr - w / IZR n / 2 - (FR xl + w / IZR n / 2)) / IZR z * IZR i + (FR xl + w / IZR n / 2)).
    - apply about_gross with (g * IZR i + 2 * m); [|lra|lra]. apply about_weaken with (1 := A4); lra.
    - unfold z in *. rewrite minus_IZR in *. unfold w. field. lra.
  Qed.
End Places.

(** ** The base of a slice *)
Lemma square_near a : valid a -> FR a * FR a < p2 1023 ->
  valid (nsq a) /\ Rabs (FR (nsq a) - FR a * FR a) <= u * (FR a * FR a) + eta.
Proof.
  intros V L. assert (P : 0 <= FR a * FR a) by (apply Rle_0_sqr). destruct (mul_near a a V V) as (W & N); [rewrite Rabs_right; lra|].
  split; [exact W|]. apply Rle_trans with (1 := N). rewrite (Rabs_right (FR a * FR a)) by lra. pose proof u_pos. pose proof eta_pos.
  assert (0 <= u * (FR a * FR a)) by (apply Rmult_le_pos; lra). apply Rmax_lub; lra.
Qed.
Lemma sqrt_part p q e : 0 <= p -> 0 <= e -> Rabs (p - q) <= e * e -> Rabs (sqrt p - sqrt q) <= e.
Proof.
  intros P E D. destruct (Rle_dec q 0) as [Q|Q].
  - rewrite (sqrt_neg_0 q Q), Rminus_0_r, Rabs_right by (apply Rle_ge, sqrt_pos).
    apply Rle_trans with (sqrt (e * e)); [|rewrite sqrt_square; lra]. apply sqrt_le_1_alt. rewrite Rabs_right in D; lra.
  - assert (A : forall a b, 0 <= a -> 0 <= b -> a - b <= e * e -> sqrt a - sqrt b <= e).
    { intros a b A0 B0 L. destruct (Rle_dec (sqrt a - sqrt b) e) as [|N]; [assumption|]. exfalso.
      pose proof (sqrt_pos a). pose proof (sqrt_pos b). pose proof (sqrt_sqrt a A0). pose proof (sqrt_sqrt b B0).
      assert (e * e < (sqrt a - sqrt b) * (sqrt a - sqrt b)) by (apply Rmult_le_0_lt_compat; lra).
      assert (0 <= sqrt b * (sqrt a - sqrt b)) by (apply Rmult_le_pos; lra). lra. }
    apply Rabs_le. pose proof (abs_span _ _ D) as (D1 & D2). split.
    + pose proof (A q p ltac:(lra) P ltac:(lra)). lra.
    + pose proof (A p q P ltac:(lra) ltac:(lra)). lra.
Qed.
Lemma sqrt_full p q e : 0 <= p -> 0 < q -> Rabs (p - q) <= e -> Rabs (sqrt p - sqrt q) <= e / sqrt q.
Proof.
  intros P Q D. pose proof (sqrt_lt_R0 q Q) as S0. pose proof (sqrt_pos p). pose proof (sqrt_sqrt p P). pose proof (sqrt_sqrt q ltac:(lra)).
  apply (Rmult_le_reg_r (sqrt q)); [exact S0|]. replace (e / sqrt q * sqrt q) with e by (field; lra).
  apply Rle_trans with (2 := D). replace (p - q) with ((sqrt p - sqrt q) * (sqrt p + sqrt q)) by (ring_simplify; rewrite <- !Rsqr_pow2; unfold Rsqr; lra).
  rewrite Rabs_mult. apply Rmult_le_compat_l; [apply Rabs_pos|]. rewrite (Rabs_right (sqrt p + sqrt q)); lra.
Qed.
Section Base.
  Context (cx cy r x : float) (Vcx : valid cx) (Vcy : valid cy) (Vr : valid r) (Vx : valid x)
    (Bx : Rabs (FR x) <= fair) (Bcx : Rabs (FR cx) <= fair) (Bcy : Rabs (FR cy) <= fair)
    (Br : p2 (-100) <= FR r <= fair).
  Let R0 := FR r.
  Let DX := FR x - FR cx.
  Let Q := R0 * R0 - DX * DX.
  Let q := nsub (nsq r) (nsq (nsub x cx)).
  Context (In : nltb (nsq r) (nsq (nsub x cx)) = false).
  Lemma R_pos : 0 < R0.
  Proof. pose proof (p2_pos (-100)). unfold R0. lra. Qed.
  Lemma R_eta : eta <= u * (R0 * R0) /\ eta <= u * R0.
  Proof.
    pose proof (p2_pos (-100)) as P. assert (A : p2 (-100) * p2 (-100) <= R0 * R0) by (apply Rmult_le_compat; unfold R0; lra).
    pose proof u_pos as U.
    split.
    - apply Rle_trans with (u * (p2 (-100) * p2 (-100))); [|apply Rmult_le_compat_l; lra]. unfold eta, u. rewrite <- !p2_add. apply p2_le. lia.
    - apply Rle_trans with (u * p2 (-100)); [|apply Rmult_le_compat_l; unfold R0; lra]. unfold eta, u. rewrite <- !p2_add. apply p2_le. lia.
  Qed.
  Lemma inside : valid q /\ 0 <= FR q <= 2 * (R0 * R0) /\ Rabs (FR q - Q) <= 17 * u * (R0 * R0).
  Proof.
    pose proof R_pos as RP. destruct R_eta as (E1 & _). pose proof fair_vast as FV. pose proof fair_big as FB. pose proof vast_big as VB.
    pose proof top_vast as TV. pose proof u_pos as U. pose proof eta_pos as EP.
    assert (RR : 0 < R0 * R0 <= fair * fair) by (split; [apply Rmult_lt_0_compat; lra|]; apply Rmult_le_compat; unfold R0 in *; lra).
    assert (FF : fair * 1 <= fair * fair) by (apply Rmult_le_compat_l; lra).
    destruct (square_near r Vr) as (Vrr & Nrr); [fold R0; lra|]. fold R0 in Nrr.
    pose proof (abs_span _ _ Nrr) as (R1 & R2).
    pose proof (abs_span _ _ Bx) as X1. pose proof (abs_span _ _ Bcx) as X2.
    assert (BD : Rabs DX <= 2 * fair) by (apply Rabs_le; unfold DX; lra).
    destruct (sub_near x cx Vx Vcx) as (Vd & Nd); [fold DX; lra|]. fold DX in Nd.
    change (SFsub prec emax x cx) with (nsub x cx) in *. set (d := nsub x cx) in *.
    assert (ND' : Rabs (FR d - DX) <= / 1000 * Rabs DX).
    { apply Rle_trans with (1 := Nd). apply Rmult_le_compat_r; [apply Rabs_pos|]. rewrite u_val. lra. }
    assert (DD : Rabs (FR d) <= 3 * fair).
    { replace (FR d) with (FR d - DX + DX) by ring. apply Rle_trans with (1 := Rabs_triang _ _). lra. }
    assert (D2 : FR d * FR d <= 9 * (fair * fair)).
    { assert (A : Rabs (FR d) * Rabs (FR d) <= (3 * fair) * (3 * fair)) by (apply Rmult_le_compat; try apply Rabs_pos; lra).
      rewrite <- Rabs_mult, Rabs_right in A by (apply Rle_ge, Rle_0_sqr). lra. }
    destruct (square_near d Vd) as (Vs & Ns); [lra|].
    pose proof (abs_span _ _ Ns) as (S1 & S2). set (sq := nsq d) in *. set (rr := nsq r) in *.
    cbn [nltb FNum] in In. rewrite ltb_FR in In by assumption. unfold Rltb in In. destruct (Rlt_dec (FR rr) (FR sq)) as [|LE]; [discriminate In|].
    apply Rnot_lt_le in LE.
    assert (P0 : 0 <= FR d * FR d) by apply Rle_0_sqr.
    assert (D3 : FR d * FR d <= 2 * (R0 * R0)) by (rewrite u_val in *; lra).
    assert (DXR : Rabs DX <= 2 * R0).
    { destruct (Rle_dec (Rabs DX) (2 * R0)) as [|N]; [assumption|]. exfalso. apply Rnot_le_lt in N.
      assert (A : / 10 * (19 * R0) <= Rabs (FR d)).
      { pose proof (Rabs_triang_inv DX (DX - FR d)) as T. replace (DX - (DX - FR d)) with (FR d) in T by ring.
        rewrite (Rabs_minus_sym DX (FR d)) in T. lra. }
      assert (B : (/ 10 * (19 * R0)) * (/ 10 * (19 * R0)) <= Rabs (FR d) * Rabs (FR d)) by (apply Rmult_le_compat; lra).
      rewrite <- Rabs_mult, Rabs_right in B by lra. lra. }
    assert (N2 : Rabs (FR d - DX) <= 2 * u * R0).
    { apply Rle_trans with (1 := Nd). apply Rle_trans with (u * (2 * R0)); [apply Rmult_le_compat_l; lra|lra]. }
    assert (N3 : Rabs (FR d * FR d - DX * DX) <= 9 * u * (R0 * R0)).
    { replace (FR d * FR d - DX * DX) with ((FR d - DX) * (FR d - DX + 2 * DX)) by ring. rewrite Rabs_mult.
      assert (A : Rabs (FR d - DX + 2 * DX) <= / 2 * (9 * R0)).
      { apply Rle_trans with (1 := Rabs_triang _ _). rewrite Rabs_mult, (Rabs_right 2) by lra. rewrite u_val in N2. lra. }
      apply Rle_trans with (2 * u * R0 * (/ 2 * (9 * R0))); [apply Rmult_le_compat; try apply Rabs_pos; lra|lra]. }
    assert (Sq0 : - (u * (R0 * R0)) <= FR sq) by (rewrite u_val in *; lra).
    destruct (sub_near rr sq Vrr Vs) as (Vq & Nq); [rewrite Rabs_right by lra; rewrite u_val in *; lra|].
    change (SFsub prec emax rr sq) with q in *. rewrite (Rabs_right (FR rr - FR sq)) in Nq by lra.
    pose proof (abs_span _ _ Nq) as (Q1 & Q2). pose proof (abs_span _ _ N3) as (T1 & T2).
    split; [exact Vq|]. split; [split; rewrite u_val in *; lra|]. apply Rabs_le. unfold Q. rewrite u_val in *. split; lra.
  Qed.
  Lemma base_near : let H := sqrt Q in let Y := FR cy - H in let y := slice_bottom cx cy r x in
    valid y /\ Rabs (FR y - Y) <= p2 (-24) * R0 + u * Rabs (FR cy) /\
    (0 < H -> Rabs (FR y - Y) <= p2 (-48) * (R0 * R0 / H) + u * Rabs (FR cy)).
  Proof.
    intros H Y y. pose proof R_pos as RP. destruct R_eta as (_ & E1). pose proof fair_vast as FV. pose proof fair_big as FB. pose proof vast_big as VB.
    pose proof top_vast as TV. pose proof u_pos as U. pose proof eta_pos as EP.
    assert (FF : fair * 1 <= fair * fair) by (apply Rmult_le_compat_l; lra).
    destruct inside as (Vq & (Q0 & Q1) & Nq). destruct (sqrt_near q Vq Q0) as (Vs & Ns).
    change (SFsqrt prec emax q) with (nsqrt q) in *. set (s := nsqrt q) in *.
    assert (SR : 0 <= sqrt (FR q) <= / 2 * (3 * R0)).
    { split; [apply sqrt_pos|]. apply Rle_trans with (sqrt ((/ 2 * (3 * R0)) * (/ 2 * (3 * R0)))); [apply sqrt_le_1_alt; lra|]. rewrite sqrt_square; lra. }
    assert (Es : Rabs (FR s - sqrt (FR q)) <= / 2 * (5 * (u * R0))).
    { apply Rle_trans with (1 := Ns). rewrite (Rabs_right (sqrt (FR q))) by lra. apply Rmax_lub.
      - apply Rle_trans with (u * (/ 2 * (3 * R0))); [apply Rmult_le_compat_l; lra|]. assert (0 <= u * R0) by (apply Rmult_le_pos; lra). lra.
      - assert (0 <= u * R0) by (apply Rmult_le_pos; lra). lra. }
    assert (UR : 0 <= u * R0 <= / 1000 * R0) by (split; [apply Rmult_le_pos; lra|]; apply Rmult_le_compat_r; [lra|]; rewrite u_val; lra).
    pose proof (abs_span _ _ Es) as (S1 & S2). pose proof (abs_span _ _ Bcy) as (C1 & C2).
    assert (Rf : R0 <= fair) by (unfold R0; lra).
    destruct (sub_near cy s Vcy Vs) as (Vy & Ny); [apply Rabs_def1; lra|].
    change (SFsub prec emax cy s) with y in *.
    assert (Ey : Rabs (FR y - (FR cy - FR s)) <= u * Rabs (FR cy) + 2 * (u * R0)).
    { apply Rle_trans with (1 := Ny). apply Rle_trans with (u * (Rabs (FR cy) + 2 * R0)); [apply Rmult_le_compat_l; [lra|]|lra].
      replace (FR cy - FR s) with (FR cy + - FR s) by ring. apply Rle_trans with (1 := Rabs_triang _ _). rewrite Rabs_Ropp.
      apply Rplus_le_compat_l, Rabs_le. lra. }
    assert (Go : forall e, Rabs (sqrt (FR q) - H) <= e -> Rabs (FR y - Y) <= e + 5 * (u * R0) + u * Rabs (FR cy)).
    { intros e E. replace (FR y - Y) with (FR y - (FR cy - FR s) + (- (FR s - sqrt (FR q)) + - (sqrt (FR q) - H))) by (unfold Y; ring).
      apply Rle_trans with (1 := Rabs_triang _ _). pose proof (Rabs_triang (- (FR s - sqrt (FR q))) (- (sqrt (FR q) - H))) as T.
      rewrite !Rabs_Ropp in T. lra. }
    split; [exact Vy|]. split.
    - assert (W : Rabs (sqrt (FR q) - H) <= / 100000000 * (5 * R0)).
      { apply sqrt_part; [exact Q0|lra|]. apply Rle_trans with (1 := Nq). rewrite u_val. assert (0 < R0 * R0) by (apply Rmult_lt_0_compat; lra). lra. }
      apply Rle_trans with (1 := Go _ W).
      replace (p2 (-24)) with (/ 16777216) by (unfold p2; cbn [powerRZ]; f_equal; rewrite pow_IZR; reflexivity). rewrite u_val. pose proof (Rabs_pos (FR cy)). lra.
    - intros H0. assert (QP : 0 < Q) by (destruct (Rlt_dec 0 Q) as [|N]; [assumption|]; unfold H in H0; rewrite sqrt_neg_0 in H0; lra).
      apply Rle_trans with (1 := Go _ (sqrt_full _ _ _ Q0 QP Nq)). fold H. replace (p2 (-48)) with (32 * u)
        by (rewrite u_val; unfold p2; cbn [powerRZ]; rewrite pow_IZR; change (2 ^ Z.of_nat (Pos.to_nat 48))%Z with 281474976710656%Z; lra).
      assert (HR : H <= R0).
      { unfold H. apply Rle_trans with (sqrt (R0 * R0)); [apply sqrt_le_1_alt; unfold Q; pose proof (Rle_0_sqr DX); unfold Rsqr in *; lra|]. rewrite sqrt_square; lra. }
      assert (K : R0 <= R0 * R0 / H).
      { apply (Rmult_le_reg_r H); [lra|]. replace (R0 * R0 / H * H) with (R0 * R0) by (field; lra). apply Rmult_le_compat_l; lra. }
      assert (A : u * R0 <= u * (R0 * R0 / H)) by (apply Rmult_le_compat_l; lra).
      replace (17 * u * (R0 * R0) / H) with (17 * (u * (R0 * R0 / H))) by (unfold Rdiv; ring). lra.
  Qed.
End Base.

(** ** The slices of a circle *)
Lemma slices_inv {T} {NT : Num T} (v : view T) cx cy r xl xr b sl : slices_of v cx cy r xl xr = Ok (Some (b, sl)) ->
  pydiv (nsub xr xl) (nz (v_slices v)) = Ok b /\
  let xs := linspace (nadd xl (ndiv b (nz 2))) (nsub xr (ndiv b (nz 2))) (v_slices v) in
  map sl_x sl = xs /\ Forall (fun s => sl_yb s = slice_bottom cx cy r (sl_x s)) sl /\
  Forall (fun x => nltb (nsq r) (nsq (nsub x cx)) = false) xs.
Proof.
  unfold slices_of. destruct (nleb _ _); [discriminate|]. destruct (pydiv _ _) as [b'|]; [|discriminate]. cbn [rbind].
  destruct (existsb _ _) eqn:EX; [discriminate|]. destruct (existsb _ (map _ _)); [discriminate|].
  destruct (water_data v) as [w|]; [|discriminate]. cbn [rbind]. destruct (v_mats v) as [|(rl & m0) l]; [discriminate|].
  intros E. injection E as <- <-. split; [reflexivity|]. cbv zeta. split; [|split].
  - rewrite map_map. rewrite <- map_id. reflexivity.
  - apply Forall_forall. intros s I. apply in_map_iff in I as (x & <- & _). reflexivity.
  - apply Forall_forall. exact (proj1 (existsb_false _ _) EX).
Qed.
Lemma linspace_nth {T} {NT : Num T} (a b : T) n i x : (2 <= n)%Z -> nth_error (linspace a b n) i = Some x ->
  ((Z.of_nat i < n - 1)%Z /\ x = nadd (nmul (nz (Z.of_nat i)) (ndiv (nsub b a) (nz (n - 1)))) a) \/
  (Z.of_nat i = (n - 1)%Z /\ x = b).
Proof.
  intros N. unfold linspace. destruct (Z.leb_spec n 0); [lia|]. destruct (Z.eqb_spec n 1); [lia|].
  set (k := (Z.to_nat n - 1)%nat). intros E. destruct (Nat.lt_ge_cases i k) as [L|L].
  - left. split; [lia|]. rewrite nth_error_app1 in E by (rewrite map_length, zrange_length; exact L).
    assert (A : forall a k i, (i < k)%nat -> nth_error (zrange a k) i = Some (a + Z.of_nat i)%Z).
    { clear. intros a k. revert a. induction k as [|k IH]; intros a i L; [lia|]. destruct i as [|i]; cbn [zrange nth_error]; [f_equal; lia|].
      rewrite IH by lia. f_equal. lia. }
    rewrite nth_error_map, A in E by exact L. cbn [option_map] in E. injection E as <-. reflexivity.
  - right. rewrite nth_error_app2 in E by (rewrite map_length, zrange_length; exact L). rewrite map_length, zrange_length in E.
    destruct (i - k)%nat as [|[|j]] eqn:D; cbn [nth_error] in E; try discriminate E. injection E as <-. split; [lia|reflexivity].
Qed.
Lemma linspace_length {T} {NT : Num T} (a b : T) n : (2 <= n)%Z -> List.length (linspace a b n) = Z.to_nat n.
Proof.
  intros N. unfold linspace. destruct (Z.leb_spec n 0); [lia|]. destruct (Z.eqb_spec n 1); [lia|].
  rewrite app_length, map_length, zrange_length. cbn [List.length]. lia.
Qed.
Lemma pydiv_ok {T} {NT : Num T} (a b c : T) : pydiv a b = Ok c -> c = ndiv a b.
Proof. unfold pydiv. destruct (_ =? _)%num; [discriminate|]. now intros [= <-]. Qed.
Lemma places_near (v : view float) cx cy r xl xr b sl : slices_of v cx cy r xl xr = Ok (Some (b, sl)) ->
  (2 <= v_slices v <= 1000)%Z -> valid xl -> valid xr -> Rabs (FR xl) <= / 8 * fair -> Rabs (FR xr) <= / 8 * fair ->
  let m := Rabs (FR xl) + Rabs (FR xr) in let n := IZR (v_slices v) in let w := (FR xr - FR xl) / n in
  (valid b /\ Rabs (FR b - w) <= p2 (-50) * m + p2 (-450)) /\ List.length sl = Z.to_nat (v_slices v) /\
  forall i s, nth_error sl i = Some s ->
    valid (sl_x s) /\ Rabs (FR (sl_x s) - (FR xl + (INR i + / 2) * w)) <= p2 (-46) * m + p2 (-450).
Proof.
  intros Q N Vl Vr Bl Br m n w. destruct (slices_inv _ _ _ _ _ _ _ _ Q) as (PD & MX & _). apply pydiv_ok in PD.
  assert (M0 : 0 <= m) by (unfold m; pose proof (Rabs_pos (FR xl)); pose proof (Rabs_pos (FR xr)); lra).
  assert (D450 : 2000000 * dust <= p2 (-450)).
  { apply Rle_trans with (p2 30 * dust); [apply Rmult_le_compat_r; [pose proof dust_pos; lra|]; rewrite p2_IZR by lia; apply IZR_le; vm_compute; discriminate|].
    unfold dust. rewrite <- p2_add. apply p2_le. lia. }
  assert (P46 : p2 (-46) = 128 * u) by (unfold u; replace (-46)%Z with (7 + -53)%Z by lia; rewrite p2_add; f_equal; rewrite p2_IZR by lia; f_equal).
  assert (P50 : p2 (-50) = 8 * u) by (unfold u; replace (-50)%Z with (3 + -53)%Z by lia; rewrite p2_add; f_equal; rewrite p2_IZR by lia; f_equal).
  pose proof dust_pos as DP. pose proof u_pos as U. assert (UM : 0 <= u * m) by (apply Rmult_le_pos; lra).
  split; [|split].
  - subst b. pose proof (width_about xl xr _ N Vl Vr Bl Br) as (V & _ & E). split; [exact V|]. fold m n w in E. rewrite P50. lra.
  - rewrite <- (map_length sl_x), MX. apply linspace_length. lia.
  - intros i s E. assert (E' : nth_error (map sl_x sl) i = Some (sl_x s)) by now rewrite nth_error_map, E.
    rewrite MX in E'. subst b. destruct (linspace_nth _ _ _ _ _ (proj1 N) E') as [(L & ->) | (L & ->)].
    + pose proof (inner_about xl xr _ N Vl Vr Bl Br (Z.of_nat i) ltac:(lia)) as (V & _ & B). split; [exact V|].
      rewrite INR_IZR_INZ. fold m n w in B. rewrite P46. lra.
    + pose proof (last_about xl xr _ N Vl Vr Bl Br) as (V & _ & B). split; [exact V|].
      rewrite INR_IZR_INZ, L, minus_IZR. fold m n w in B. fold n.
      replace (FR xl + (n - 1 + / 2) * w) with (FR xr - w / 2); [rewrite P46; lra|]. unfold w. field.
      unfold n. apply not_0_IZR. lia.
Qed.
Lemma bases_near (v : view float) cx cy r xl xr b sl : slices_of v cx cy r xl xr = Ok (Some (b, sl)) ->
  valid cx -> valid cy -> valid r -> Rabs (FR cx) <= fair -> Rabs (FR cy) <= fair -> p2 (-100) <= FR r <= fair ->
  Forall (fun s => valid (sl_x s) -> Rabs (FR (sl_x s)) <= fair ->
    let h := sqrt (FR r * FR r - (FR (sl_x s) - FR cx) * (FR (sl_x s) - FR cx)) in
    let e := Rabs (FR (sl_yb s) - (FR cy - h)) in
    valid (sl_yb s) /\ e <= p2 (-24) * FR r + u * Rabs (FR cy) /\ (0 < h -> e <= p2 (-48) * (FR r * FR r / h) + u * Rabs (FR cy))) sl.
Proof.
  intros Q Vcx Vcy Vr Bcx Bcy Br. destruct (slices_inv _ _ _ _ _ _ _ _ Q) as (_ & MX & FB & FI). rewrite <- MX in FI.
  rewrite Forall_forall in *. intros s I Vx Bx h e. unfold e. rewrite (FB s I). apply base_near; auto.
  apply FI. apply in_map. exact I.
Qed.
