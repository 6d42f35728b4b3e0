(** * RoundTheory: what the operations of binary64 return, as real numbers. *)
From Coq Require Import ZArith Reals Lra Lia Bool SpecFloat.
From Verif Require Import FloatNum.
Local Open Scope R_scope.

(** ** Powers of two *)
Definition p2 (e : Z) : R := powerRZ 2 e.
Lemma p2_pos e : 0 < p2 e.
Proof. apply powerRZ_lt. lra. Qed.
Lemma p2_add a b : p2 (a + b) = p2 a * p2 b.
Proof. apply powerRZ_add. lra. Qed.
Lemma p2_0 : p2 0 = 1.
Proof. reflexivity. Qed.
Lemma p2_1 : p2 1 = 2.
Proof. apply powerRZ_1. Qed.
Lemma p2_neg e : p2 (- e) = / p2 e.
Proof.
  apply (Rmult_eq_reg_r (p2 e)); [|apply Rgt_not_eq, p2_pos]. rewrite <- p2_add, Rinv_l by (apply Rgt_not_eq, p2_pos).
  now replace (- e + e)%Z with 0%Z by lia.
Qed.
Lemma p2_IZR n : (0 <= n)%Z -> p2 n = IZR (2 ^ n).
Proof.
  intros N. unfold p2. destruct n as [|p|p]; [reflexivity| |lia]. cbn [powerRZ].
  rewrite <- (positive_nat_Z p), <- pow_IZR. reflexivity.
Qed.
Lemma p2_le a b : (a <= b)%Z -> p2 a <= p2 b.
Proof.
  intros L. replace b with (a + (b - a))%Z by lia. rewrite p2_add, (p2_IZR (b - a)) by lia.
  assert (1 <= IZR (2 ^ (b - a))).
  { apply (IZR_le 1). pose proof (Z.pow_pos_nonneg 2 (b - a)). lia. }
  pose proof (p2_pos a). nra.
Qed.
Lemma p2_lt_inv a b : p2 a < p2 b -> (a < b)%Z.
Proof. intros L. destruct (Z.lt_ge_cases a b) as [|G]; [assumption|]. apply p2_le in G. lra. Qed.
Lemma p2_lt a b : (a < b)%Z -> p2 a < p2 b.
Proof.
  intros L. pose proof (p2_le (a + 1) b ltac:(lia)) as Q. rewrite p2_add, p2_1 in Q. pose proof (p2_pos a). lra.
Qed.

(** ** The value of a float *)
Definition sgn (s : bool) : R := if s then -1 else 1.
Definition FR (x : float) : R :=
  match x with S754_finite s m e => sgn s * (IZR (Zpos m) * p2 e) | _ => 0 end.
Definition fin (x : float) : Prop := f_is_finite x = true.
Definition valid (x : float) : Prop := fin x /\ valid_binary prec emax x = true.

(** ** Number of binary digits *)
Lemma digits_pos p : (2 ^ (Zpos (digits2_pos p) - 1) <= Zpos p < 2 ^ Zpos (digits2_pos p))%Z.
Proof.
  induction p as [p IH|p IH|]; cbn [digits2_pos].
  - rewrite Pos2Z.inj_succ. replace (Z.succ (Zpos (digits2_pos p)) - 1)%Z with (1 + (Zpos (digits2_pos p) - 1))%Z by lia.
    rewrite Z.pow_add_r, Z.pow_succ_r by lia. change (2 ^ 1)%Z with 2%Z. lia.
  - rewrite Pos2Z.inj_succ. replace (Z.succ (Zpos (digits2_pos p)) - 1)%Z with (1 + (Zpos (digits2_pos p) - 1))%Z by lia.
    rewrite Z.pow_add_r, Z.pow_succ_r by lia. change (2 ^ 1)%Z with 2%Z. lia.
  - cbn. lia.
Qed.
Lemma digits_unique m d : (0 < d)%Z -> (2 ^ (d - 1) <= Zpos m < 2 ^ d)%Z -> Zpos (digits2_pos m) = d.
Proof.
  intros D (A & B). pose proof (digits_pos m) as (A' & B').
  assert (d - 1 < Zpos (digits2_pos m))%Z by (apply (Z.pow_lt_mono_r_iff 2); lia).
  assert (Zpos (digits2_pos m) - 1 < d)%Z by (apply (Z.pow_lt_mono_r_iff 2); lia). lia.
Qed.
Lemma digits_le m d : (Zpos m < 2 ^ d)%Z -> (0 <= d)%Z -> (Zpos (digits2_pos m) <= d)%Z.
Proof.
  intros B D. pose proof (digits_pos m) as (A' & B').
  assert (Zpos (digits2_pos m) - 1 < d)%Z by (apply (Z.pow_lt_mono_r_iff 2); lia). lia.
Qed.
(** ** Position of a real number [t] relative to the integer [m] *)
Definition within (m : Z) (r s : bool) (t : R) : Prop :=
  match r, s with
  | false, false => t = IZR m
  | false, true => IZR m < t < IZR m + / 2
  | true, false => t = IZR m + / 2
  | true, true => IZR m + / 2 < t < IZR m + 1
  end.
Definition located (q : shr_record) (t : R) : Prop := within (shr_m q) (shr_r q) (shr_s q) t.
Lemma shr_1_located q t : (0 <= shr_m q)%Z -> located q t -> (0 <= shr_m (shr_1 q))%Z /\ located (shr_1 q) (t / 2).
Proof.
  destruct q as [m r s]. unfold located. cbn [shr_m shr_r shr_s]. intros P L. destruct m as [|p|p]; [| |lia].
  - cbn [shr_1 shr_m shr_r shr_s]. split; [lia|]. destruct r, s; cbn [orb within] in *; lra.
  - destruct p as [p|p|]; cbn [shr_1 shr_m shr_r shr_s]; (split; [lia|]).
    + assert (IZR (Zpos p~1) = 2 * IZR (Zpos p) + 1) by (now rewrite Pos2Z.inj_xI, plus_IZR, mult_IZR).
      destruct r, s; cbn [orb within] in *; lra.
    + assert (IZR (Zpos p~0) = 2 * IZR (Zpos p)) by (now rewrite Pos2Z.inj_xO, mult_IZR).
      destruct r, s; cbn [orb within] in *; lra.
    + destruct r, s; cbn [orb within] in *; lra.
Qed.
Lemma iter_located n : forall q t, (0 <= shr_m q)%Z -> located q t ->
  (0 <= shr_m (iter_pos shr_1 n q))%Z /\ located (iter_pos shr_1 n q) (t / p2 (Zpos n)).
Proof.
  induction n as [n IH|n IH|]; intros q t P L; cbn [iter_pos].
  - destruct (shr_1_located q t P L) as (P1 & L1). destruct (IH _ _ P1 L1) as (P2 & L2).
    destruct (IH _ _ P2 L2) as (P3 & L3). split; [assumption|].
    rewrite Pos2Z.inj_xI. replace (2 * Zpos n + 1)%Z with (1 + (Zpos n + Zpos n))%Z by lia.
    rewrite !p2_add, p2_1. pose proof (p2_pos (Zpos n)).
    replace (t / (2 * (p2 (Zpos n) * p2 (Zpos n)))) with (t / 2 / p2 (Zpos n) / p2 (Zpos n)) by (field; lra). assumption.
  - destruct (IH _ _ P L) as (P2 & L2). destruct (IH _ _ P2 L2) as (P3 & L3). split; [assumption|].
    rewrite Pos2Z.inj_xO. replace (2 * Zpos n)%Z with (Zpos n + Zpos n)%Z by lia.
    rewrite p2_add. pose proof (p2_pos (Zpos n)).
    replace (t / (p2 (Zpos n) * p2 (Zpos n))) with (t / p2 (Zpos n) / p2 (Zpos n)) by (field; lra). assumption.
  - rewrite p2_1. now apply shr_1_located.
Qed.
Lemma shr_located q e n t : (0 <= shr_m q)%Z -> located q t -> (0 <= n)%Z ->
  (0 <= shr_m (fst (shr q e n)))%Z /\ located (fst (shr q e n)) (t / p2 n) /\ snd (shr q e n) = (e + n)%Z.
Proof.
  intros P L N. destruct n as [|n|n]; [| |lia]; cbn [shr fst snd].
  - replace (t / p2 0) with t by (rewrite p2_0; lra). split; [assumption|]. split; [assumption|lia].
  - destruct (iter_located n q t P L). auto.
Qed.
(** the integer chosen *)
Lemma nearest q t : located q t -> let m := round_nearest_even (shr_m q) (loc_of_shr_record q) in
  Rabs (IZR m - t) <= / 2 /\ (m = shr_m q \/ m = shr_m q + 1)%Z /\ IZR (shr_m q) <= t < IZR (shr_m q) + 1.
Proof.
  destruct q as [m r s]. unfold located. cbn [shr_m shr_r shr_s]. intros L.
  destruct r, s; cbn [loc_of_shr_record round_nearest_even within] in *.
  - rewrite plus_IZR. split; [apply Rabs_le; lra|]. split; [now right|lra].
  - destruct (Z.even m); rewrite ?plus_IZR; (split; [apply Rabs_le; lra|]; split; [tauto|lra]).
  - split; [apply Rabs_le; lra|]. split; [now left|lra].
  - split; [apply Rabs_le; lra|]. split; [now left|lra].
Qed.

(** ** Rounding a located number *)
Definition fe (k : Z) : Z := Z.max (k - 53) (-1074).
Lemma fexp_fe k : fexp prec emax k = fe k.
Proof. reflexivity. Qed.
Definition pack (sx : bool) (k e : Z) : float :=
  let '(q, e') := shr_fexp prec emax k e loc_Exact in
  match shr_m q with
  | Z0 => S754_zero sx
  | Zpos m => if Zle_bool e' (emax - prec) then S754_finite sx m e' else S754_infinity sx
  | _ => S754_nan
  end.
Lemma pack_value sx k e : (0 <= k <= 2 ^ 53)%Z -> (-1074 <= e <= 970)%Z -> (e = -1074 \/ 2 ^ 52 <= k)%Z ->
  valid (pack sx k e) /\ FR (pack sx k e) = sgn sx * (IZR k * p2 e).
Proof.
  intros K E C. destruct (Z.eq_dec k (2 ^ 53)) as [->|Nk].
  - clear K C. unfold pack, shr_fexp. rewrite fexp_fe. change (Zdigits2 (2 ^ 53)) with 54%Z.
    assert (fe (54 + e) - e = 1)%Z as -> by (unfold fe; lia). cbn [shr shr_record_of_loc].
    change (iter_pos shr_1 1 {| shr_m := 2 ^ 53; shr_r := false; shr_s := false |})
      with ({| shr_m := 2 ^ 52; shr_r := false; shr_s := false |}).
    cbn [shr_m]. change (2 ^ 52)%Z with (Zpos 4503599627370496).
    change (emax - prec)%Z with 971%Z. destruct (Zle_bool (e + 1) 971) eqn:L; [|apply Z.leb_gt in L; lia].
    split; [split; [reflexivity|]|].
    + cbn [valid_binary]. unfold bounded, canonical_mantissa. rewrite fexp_fe.
      change (Zpos (digits2_pos 4503599627370496)) with 53%Z. change (emax - prec)%Z with 971%Z. rewrite L, andb_true_r.
      apply Zeq_is_eq_bool. unfold fe. lia.
    + cbn [FR]. f_equal. rewrite p2_add, p2_1. change (2 ^ 53)%Z with (2 * 4503599627370496)%Z. rewrite mult_IZR. lra.
  - unfold pack, shr_fexp. rewrite fexp_fe. destruct k as [|k|k]; [| |lia].
    + assert (fe (Zdigits2 0 + e) - e <= 0)%Z as N by (cbn [Zdigits2]; unfold fe; lia).
      destruct (fe (Zdigits2 0 + e) - e)%Z as [|n|n] eqn:Q; [| lia|]; cbn [shr shr_record_of_loc shr_m];
        (split; [split; reflexivity|cbn [FR]; lra]).
    + assert (D : (Zpos (digits2_pos k) <= 53)%Z) by (apply digits_le; lia).
      assert (fe (Zdigits2 (Zpos k) + e) - e <= 0)%Z as N by (cbn [Zdigits2]; unfold fe; lia).
      assert (shr (shr_record_of_loc (Zpos k) loc_Exact) e (fe (Zdigits2 (Zpos k) + e) - e) =
              (shr_record_of_loc (Zpos k) loc_Exact, e)) as ->.
      { destruct (fe (Zdigits2 (Zpos k) + e) - e)%Z as [|n|n]; [reflexivity|lia|reflexivity]. }
      cbn [shr_record_of_loc shr_m]. change (emax - prec)%Z with 971%Z.
      destruct (Zle_bool e 971) eqn:L; [|apply Z.leb_gt in L; lia].
      split; [split; [reflexivity|]|reflexivity].
      cbn [valid_binary]. unfold bounded, canonical_mantissa. rewrite fexp_fe.
      change (emax - prec)%Z with 971%Z. rewrite L, andb_true_r. apply Zeq_is_eq_bool.
      destruct C as [->|C]; [unfold fe; lia|].
      assert (Zpos (digits2_pos k) = 53)%Z as -> by (apply digits_unique; lia). unfold fe. lia.
Qed.

Lemma located_size m l x e : (0 <= m)%Z -> located (shr_record_of_loc m l) (x / p2 e) ->
  IZR m * p2 e <= x < (IZR m + 1) * p2 e.
Proof.
  intros P L. pose proof (p2_pos e) as Q. assert (X : x = x / p2 e * p2 e) by (field; lra).
  assert (IZR m <= x / p2 e < IZR m + 1).
  { destruct l as [|[]]; unfold located in L; cbn [shr_record_of_loc shr_m shr_r shr_s within] in L; lra. }
  split; [|]; rewrite X; [apply Rmult_le_compat_r|apply Rmult_lt_compat_r]; lra.
Qed.
Lemma size_digits m x e : IZR (Zpos m) * p2 e <= x < (IZR (Zpos m) + 1) * p2 e ->
  p2 (Zpos (digits2_pos m) + e - 1) <= x < p2 (Zpos (digits2_pos m) + e).
Proof.
  intros (A & B). pose proof (digits_pos m) as (C & D). pose proof (p2_pos e).
  set (d := Zpos (digits2_pos m)) in *.
  assert (1 <= d)%Z by (unfold d; lia).
  replace (d + e - 1)%Z with ((d - 1) + e)%Z by lia. rewrite !p2_add. rewrite (p2_IZR d), (p2_IZR (d - 1)) by lia.
  apply IZR_le in C. assert (IZR (Zpos m) + 1 <= IZR (2 ^ d)).
  { rewrite <- (plus_IZR _ 1). apply IZR_le. lia. }
  split; [apply Rle_trans with (2 := A)|apply Rlt_le_trans with (1 := B)]; apply Rmult_le_compat_r; lra.
Qed.

Lemma round_located sx m e l x : (0 <= m)%Z -> located (shr_record_of_loc m l) (x / p2 e) ->
  (e <= fe (Zdigits2 m + e))%Z -> let e1 := fe (Zdigits2 m + e) in
  exists k, binary_round_aux prec emax sx m e l = pack sx k e1 /\
    (0 <= k <= 2 ^ 53)%Z /\ (e1 = -1074 \/ 2 ^ 52 <= k)%Z /\
    Rabs (IZR k * p2 e1 - x) <= p2 (e1 - 1) /\ (e = e1 -> l = loc_Exact -> k = m).
Proof.
  intros P L E e1. pose proof (located_size m l x e P L) as SZ.
  pose proof (shr_located (shr_record_of_loc m l) e (e1 - e) (x / p2 e)) as S.
  assert (P0 : (0 <= shr_m (shr_record_of_loc m l))%Z) by (destruct l as [|[]]; exact P).
  specialize (S P0 L ltac:(fold e1 in E; lia)).
  unfold binary_round_aux. unfold shr_fexp at 1. rewrite fexp_fe. fold e1.
  destruct (shr (shr_record_of_loc m l) e (e1 - e)) as [q e'] eqn:Q. cbn [fst snd] in S.
  destruct S as (P1 & L1 & ->). replace (e + (e1 - e))%Z with e1 by lia.
  pose proof (p2_pos e) as Pe. pose proof (p2_pos e1) as Pe1.
  assert (X : x / p2 e / p2 (e1 - e) = x / p2 e1).
  { replace (p2 e1) with (p2 e * p2 (e1 - e)) by (rewrite <- p2_add; f_equal; lia).
    pose proof (p2_pos (e1 - e)). field. lra. }
  rewrite X in L1. destruct (nearest q _ L1) as (N & C & B).
  set (k := round_nearest_even (shr_m q) (loc_of_shr_record q)) in *.
  exists k. split; [reflexivity|].
  assert (X1 : x = x / p2 e1 * p2 e1) by (field; lra).
  assert (U : x / p2 e1 < IZR (2 ^ 53) /\ (e1 <> (-1074)%Z -> IZR (2 ^ 52) <= x / p2 e1)).
  { destruct m as [|m|m]; [| |lia].
    - assert (E2 : (e1 = -1074)%Z) by (cbn [Zdigits2] in *; unfold e1, fe in *; lia). split; [|congruence].
      apply Rmult_lt_reg_r with (p2 e1); [assumption|]. rewrite <- X1, <- p2_IZR, <- p2_add by lia.
      apply Rlt_le_trans with (1 := proj2 SZ). rewrite Rplus_0_l, Rmult_1_l. apply p2_le. fold e1 in E. lia.
    - destruct (size_digits m x e SZ) as (Z1 & Z2). cbn [Zdigits2] in *. split; [|intros Ne].
      + apply Rmult_lt_reg_r with (p2 e1); [assumption|]. rewrite <- X1, <- p2_IZR, <- p2_add by lia.
        apply Rlt_le_trans with (1 := Z2). apply p2_le. unfold e1, fe. lia.
      + apply Rmult_le_reg_r with (p2 e1); [assumption|]. rewrite <- X1, <- p2_IZR, <- p2_add by lia.
        apply Rle_trans with (2 := Z1). apply p2_le. unfold e1, fe in *. lia. }
  destruct U as (U1 & U2).
  assert (M1 : (shr_m q < 2 ^ 53)%Z) by (apply lt_IZR; lra).
  split; [lia|]. split; [|split].
  - destruct (Z.eq_dec e1 (-1074)) as [|Ne]; [now left|right]. specialize (U2 Ne).
    assert (2 ^ 52 < shr_m q + 1)%Z by (apply lt_IZR; rewrite plus_IZR; lra). lia.
  - replace (IZR k * p2 e1 - x) with ((IZR k - x / p2 e1) * p2 e1) by (field; lra).
    rewrite Rabs_mult, (Rabs_pos_eq (p2 e1)) by lra. replace (e1 - 1)%Z with (e1 + -1)%Z by lia.
    rewrite p2_add. replace (p2 (-1)) with (/ 2) by (change (-1)%Z with (- (1))%Z; now rewrite p2_neg, p2_1).
    rewrite (Rmult_comm (p2 e1)). apply Rmult_le_compat_r; lra.
  - intros Ee ->. rewrite <- Ee, Z.sub_diag in Q. cbn [shr shr_record_of_loc] in Q. injection Q as <-. reflexivity.
Qed.

(** ** Relative error *)
Definition u : R := p2 (-53).
Definition eta : R := p2 (-1075).
Definition near (y x : R) : Prop := Rabs (y - x) <= Rmax (u * Rabs x) eta.
Lemma round_near sx m e l x : (0 <= m)%Z -> located (shr_record_of_loc m l) (x / p2 e) ->
  (e <= fe (Zdigits2 m + e))%Z -> 0 <= x < p2 1023 ->
  let y := binary_round_aux prec emax sx m e l in
  valid y /\ near (FR y) (sgn sx * x) /\
  (e = fe (Zdigits2 m + e) -> l = loc_Exact -> FR y = sgn sx * x) /\
  (fe (Zdigits2 m + e) <> (-1074)%Z -> Rabs (FR y - sgn sx * x) <= u * x).
Proof.
  intros P L E X y. destruct (round_located sx m e l x P L E) as (k & Q & K & C & N & Ex).
  pose proof (located_size m l x e P L) as SZ. set (e1 := fe (Zdigits2 m + e)) in *.
  assert (E1 : (-1074 <= e1 <= 970)%Z).
  { split; [unfold e1, fe; lia|]. destruct m as [|m|m]; [| |lia].
    - cbn [Zdigits2] in *. unfold e1, fe in *. lia.
    - destruct (size_digits m x e SZ) as (Z1 & Z2). cbn [Zdigits2] in *.
      assert (Zpos (digits2_pos m) + e - 1 < 1023)%Z by (apply p2_lt_inv; lra). unfold e1, fe. lia. }
  destruct (pack_value sx k e1 K E1 C) as (V & F). unfold y. rewrite Q. split; [assumption|].
  assert (AB : forall a, Rabs (sgn sx * a) = Rabs a).
  { intros a. rewrite Rabs_mult. replace (Rabs (sgn sx)) with 1; [lra|].
    destruct sx; cbn [sgn]; [rewrite Rabs_left|rewrite Rabs_right]; lra. }
  assert (D : FR (pack sx k e1) - sgn sx * x = sgn sx * (IZR k * p2 e1 - x)) by (rewrite F; ring).
  assert (H1 : e1 <> (-1074)%Z -> p2 (e1 - 1) <= u * x).
  { intros Ne. destruct m as [|m|m]; [| |lia].
    - cbn [Zdigits2] in *. exfalso. unfold e1, fe in *. lia.
    - destruct (size_digits m x e SZ) as (Z1 & _). cbn [Zdigits2] in *.
      apply Rle_trans with (u * p2 (Zpos (digits2_pos m) + e - 1)).
      + unfold u. rewrite <- p2_add. apply p2_le. unfold e1, fe in *. lia.
      + apply Rmult_le_compat_l; [left; apply p2_pos|lra]. }
  split; [|split].
  - unfold near. rewrite D, !AB, (Rabs_pos_eq x) by lra. apply Rle_trans with (1 := N).
    destruct (Z.eq_dec e1 (-1074)) as [->|Ne]; [apply Rmax_r|]. apply Rle_trans with (2 := Rmax_l _ _). auto.
  - intros Ee El. rewrite F. f_equal. rewrite (Ex Ee El). unfold located in L. rewrite El in L.
    cbn [shr_record_of_loc shr_m shr_r shr_s within] in L. rewrite <- Ee, <- L. field. pose proof (p2_pos e). lra.
  - intros Ne. rewrite D, AB. apply Rle_trans with (1 := N). auto.
Qed.

(** ** The operations *)
Lemma valid_finite s m e : valid (S754_finite s m e) -> fe (Zpos (digits2_pos m) + e) = e /\ (-1074 <= e <= 971)%Z.
Proof.
  intros (_ & V). cbn [valid_binary] in V. unfold bounded, canonical_mantissa in V. rewrite fexp_fe in V.
  apply andb_true_iff in V. destruct V as (A & B). apply Zeq_bool_eq in A. apply Z.leb_le in B.
  change (emax - prec)%Z with 971%Z in B. split; [assumption|]. unfold fe in A. lia.
Qed.
Lemma valid_zero s : valid (S754_zero s).
Proof. split; reflexivity. Qed.
Lemma near_refl x : near x x.
Proof. unfold near. rewrite Rminus_diag_eq, Rabs_R0 by reflexivity. apply Rle_trans with (2 := Rmax_r _ _). left. apply p2_pos. Qed.
Lemma sgn_xorb a b : sgn (xorb a b) = sgn a * sgn b.
Proof. destruct a, b; cbn [sgn xorb]; lra. Qed.
Lemma exactly m e : located (shr_record_of_loc m loc_Exact) (IZR m * p2 e / p2 e).
Proof. unfold located. cbn [shr_record_of_loc shr_m shr_r shr_s within]. field. pose proof (p2_pos e). lra. Qed.

Lemma sgn_abs s a : 0 <= a -> Rabs (sgn s * a) = a.
Proof. intros P. destruct s; cbn [sgn]; [rewrite Rabs_left1|rewrite Rabs_right]; lra. Qed.

Lemma mul_near a b : valid a -> valid b -> Rabs (FR a * FR b) < p2 1023 ->
  valid (SFmul prec emax a b) /\ near (FR (SFmul prec emax a b)) (FR a * FR b).
Proof.
  intros Va Vb L. destruct a as [sa|sa| |sa ma ea]; try (destruct Va as (Q & _); discriminate Q);
  destruct b as [sb|sb| |sb mb eb]; try (destruct Vb as (Q & _); discriminate Q); cbn [SFmul FR];
    try (split; [apply valid_zero|]; rewrite ?Rmult_0_l, ?Rmult_0_r; apply near_refl).
  apply valid_finite in Va, Vb. destruct Va as (A1 & A2), Vb as (B1 & B2). cbn [FR] in L.
  pose proof (digits_pos ma) as Da. pose proof (digits_pos mb) as Db. pose proof (digits_pos (ma * mb)) as Dc.
  pose proof (p2_pos ea). pose proof (p2_pos eb).
  assert (Pa : 0 < IZR (Zpos ma)) by (apply (IZR_lt 0); lia). assert (Pb : 0 < IZR (Zpos mb)) by (apply (IZR_lt 0); lia).
  set (x := IZR (Zpos (ma * mb)) * p2 (ea + eb)).
  assert (X : sgn sa * (IZR (Zpos ma) * p2 ea) * (sgn sb * (IZR (Zpos mb) * p2 eb)) = sgn (xorb sa sb) * x).
  { unfold x. rewrite Pos2Z.inj_mul, mult_IZR, p2_add, sgn_xorb. ring. }
  assert (X0 : 0 <= x).
  { unfold x. apply Rmult_le_pos; [apply (IZR_le 0); lia|left; apply p2_pos]. }
  rewrite X in *. rewrite sgn_abs in L by assumption.
  assert (G : (Zpos (digits2_pos ma) + Zpos (digits2_pos mb) - 1 <= Zpos (digits2_pos (ma * mb)))%Z).
  { assert (Zpos (digits2_pos ma) - 1 + (Zpos (digits2_pos mb) - 1) < Zpos (digits2_pos (ma * mb)))%Z; [|lia].
    apply (Z.pow_lt_mono_r_iff 2); [lia|lia|]. rewrite Z.pow_add_r by lia. rewrite Pos2Z.inj_mul in Dc.
    apply Z.le_lt_trans with (2 := proj2 Dc). apply Z.mul_le_mono_nonneg; lia. }
  pose proof (round_near (xorb sa sb) (Zpos (ma * mb)) (ea + eb) loc_Exact x) as Rn.
  destruct Rn as (V & N & _ & _); [lia|apply exactly| |lra|auto].
  cbn [Zdigits2]. unfold fe in *. lia.
Qed.

Lemma normalize_near z e : (-1074 <= e)%Z -> Rabs (IZR z * p2 e) < p2 1023 ->
  let y := binary_normalize prec emax z e false in
  valid y /\ Rabs (FR y - IZR z * p2 e) <= u * Rabs (IZR z * p2 e) /\
  ((Z.abs z < 2 ^ 53)%Z -> FR y = IZR z * p2 e).
Proof.
  intros E L y. unfold y, binary_normalize.
  assert (G : forall s m, IZR z = sgn s * IZR (Zpos m) -> Z.abs z = Zpos m ->
    valid (binary_round prec emax s m e) /\
    Rabs (FR (binary_round prec emax s m e) - IZR z * p2 e) <= u * Rabs (IZR z * p2 e) /\
    ((Z.abs z < 2 ^ 53)%Z -> FR (binary_round prec emax s m e) = IZR z * p2 e)).
  { intros s m Ez Az. rewrite Az. clear Az. rewrite Ez in *. pose proof (p2_pos e) as Pe.
    assert (Pm : 0 < IZR (Zpos m)) by (apply (IZR_lt 0); lia).
    set (x := IZR (Zpos m) * p2 e). assert (X0 : 0 < x) by (unfold x; nra).
    replace (sgn s * IZR (Zpos m) * p2 e) with (sgn s * x) in * by (unfold x; ring).
    rewrite sgn_abs in * by lra. unfold binary_round. rewrite fexp_fe.
    set (e1 := fe (Zpos (digits2_pos m) + e)).
    unfold shl_align. destruct (e1 - e)%Z as [|k|k] eqn:Q.
    - pose proof (round_near s (Zpos m) e loc_Exact x) as Rn.
      destruct Rn as (V & N & Ex & _); [lia|apply exactly|cbn [Zdigits2]; fold e1; lia|lra|].
      split; [assumption|]. rewrite Ex; [|cbn [Zdigits2]; fold e1; lia|reflexivity]. split; [|reflexivity].
      rewrite Rminus_diag_eq, Rabs_R0 by reflexivity. pose proof (p2_pos (-53)). unfold u. nra.
    - pose proof (round_near s (Zpos m) e loc_Exact x) as Rn.
      destruct Rn as (V & N & Ex & St); [lia|apply exactly|cbn [Zdigits2]; fold e1; lia|lra|].
      split; [assumption|]. split; [apply St; cbn [Zdigits2]; fold e1; lia|].
      intros Sm. exfalso. pose proof (digits_pos m) as (A & _).
      assert (Zpos (digits2_pos m) - 1 < 53)%Z by (apply (Z.pow_lt_mono_r_iff 2); lia).
      unfold e1, fe in Q. lia.
    - assert (Sh : Zpos (shift_pos k m) = (Zpos m * 2 ^ Zpos k)%Z) by (rewrite shift_pos_correct, Z.pow_pos_fold; lia).
      assert (Dg : (Zpos (digits2_pos (shift_pos k m)) = Zpos (digits2_pos m) + Zpos k)%Z).
      { apply digits_unique; [lia|]. rewrite Sh. pose proof (digits_pos m) as (A & B).
        replace (Zpos (digits2_pos m) + Zpos k - 1)%Z with (Zpos (digits2_pos m) - 1 + Zpos k)%Z by lia.
        rewrite !Z.pow_add_r by lia. pose proof (Z.pow_pos_nonneg 2 (Zpos k)). split.
        - apply Z.mul_le_mono_nonneg_r; lia.
        - apply Z.mul_lt_mono_pos_r; lia. }
      assert (X : x = IZR (Zpos (shift_pos k m)) * p2 e1).
      { rewrite Sh, mult_IZR, <- p2_IZR by lia. unfold x. rewrite Rmult_assoc, <- p2_add. do 2 f_equal. lia. }
      assert (F : fe (Zdigits2 (Zpos (shift_pos k m)) + e1) = e1).
      { cbn [Zdigits2]. rewrite Dg. unfold e1 at 2. f_equal. lia. }
      pose proof (round_near s (Zpos (shift_pos k m)) e1 loc_Exact x) as Rn.
      destruct Rn as (V & N & Ex & St); [lia|rewrite X; apply exactly|lia|lra|].
      split; [assumption|]. rewrite Ex; [|lia|reflexivity]. split; [|reflexivity].
      rewrite Rminus_diag_eq, Rabs_R0 by reflexivity. pose proof (p2_pos (-53)). unfold u. nra. }
  destruct z as [|m|m].
  - split; [apply valid_zero|]. cbn [FR]. rewrite Rmult_0_l, Rminus_0_r, Rabs_R0. split; [lra|reflexivity].
  - apply (G false m); [cbn [sgn]; lra|reflexivity].
  - apply (G true m); [|reflexivity]. cbn [sgn]. change (Zneg m) with (- Zpos m)%Z. rewrite opp_IZR. lra.
Qed.

Lemma shl_align_value m e ez : (ez <= e)%Z ->
  IZR (Zpos (fst (shl_align m e ez))) * p2 ez = IZR (Zpos m) * p2 e.
Proof.
  intros L. unfold shl_align. destruct (ez - e)%Z as [|k|k] eqn:Q; [|lia|]; cbn [fst].
  - now replace ez with e by lia.
  - rewrite shift_pos_correct, Z.pow_pos_fold, mult_IZR, <- p2_IZR by lia.
    rewrite (Rmult_comm (p2 _)), Rmult_assoc, <- p2_add. do 2 f_equal. lia.
Qed.
Lemma cond_value s m e ez : (ez <= e)%Z ->
  IZR (cond_Zopp s (Zpos (fst (shl_align m e ez)))) * p2 ez = sgn s * (IZR (Zpos m) * p2 e).
Proof.
  intros L. rewrite <- (shl_align_value m e ez L). destruct s; cbn [cond_Zopp sgn]; [rewrite opp_IZR|]; ring.
Qed.
Lemma add_zero x : Rabs (x - x) <= u * Rabs x.
Proof.
  rewrite Rminus_diag_eq, Rabs_R0 by reflexivity. apply Rmult_le_pos; [left; apply p2_pos|apply Rabs_pos].
Qed.
(** addition and subtraction have no error from small results *)
Lemma add_near a b : valid a -> valid b -> Rabs (FR a + FR b) < p2 1023 ->
  valid (SFadd prec emax a b) /\ Rabs (FR (SFadd prec emax a b) - (FR a + FR b)) <= u * Rabs (FR a + FR b).
Proof.
  intros Va Vb L. destruct a as [sa|sa| |sa ma ea]; try (destruct Va as (Q & _); discriminate Q);
  destruct b as [sb|sb| |sb mb eb]; try (destruct Vb as (Q & _); discriminate Q); cbn [SFadd].
  - cbn [FR]. rewrite Rplus_0_l. destruct (Bool.eqb sa sb); (split; [apply valid_zero|apply add_zero]).
  - rewrite Rplus_0_l. split; [assumption|apply add_zero].
  - rewrite Rplus_0_r. split; [assumption|apply add_zero].
  - pose proof (valid_finite _ _ _ Va) as (_ & A2). pose proof (valid_finite _ _ _ Vb) as (_ & B2). cbn [FR] in *.
    set (ez := Z.min ea eb).
    assert (X : sgn sa * (IZR (Zpos ma) * p2 ea) + sgn sb * (IZR (Zpos mb) * p2 eb) =
      IZR (cond_Zopp sa (Zpos (fst (shl_align ma ea ez))) + cond_Zopp sb (Zpos (fst (shl_align mb eb ez)))) * p2 ez).
    { rewrite plus_IZR, Rmult_plus_distr_r, !cond_value by (unfold ez; lia). reflexivity. }
    rewrite X in *.
    destruct (normalize_near _ ez ltac:(unfold ez; lia) L) as (V & N & _). split; assumption.
Qed.
Lemma sub_near a b : valid a -> valid b -> Rabs (FR a - FR b) < p2 1023 ->
  valid (SFsub prec emax a b) /\ Rabs (FR (SFsub prec emax a b) - (FR a - FR b)) <= u * Rabs (FR a - FR b).
Proof.
  intros Va Vb L. destruct a as [sa|sa| |sa ma ea]; try (destruct Va as (Q & _); discriminate Q);
  destruct b as [sb|sb| |sb mb eb]; try (destruct Vb as (Q & _); discriminate Q); cbn [SFsub].
  - cbn [FR]. rewrite Rminus_0_r. destruct (Bool.eqb sa (negb sb)); (split; [apply valid_zero|apply add_zero]).
  - assert (FR (S754_finite (negb sb) mb eb) = FR (S754_zero sa) - FR (S754_finite sb mb eb)) as ->.
    { cbn [FR]. destruct sb; cbn [negb sgn]; lra. }
    split; [|apply add_zero]. destruct Vb as (_ & V). split; [reflexivity|exact V].
  - cbn [FR]. rewrite Rminus_0_r. split; [assumption|apply add_zero].
  - pose proof (valid_finite _ _ _ Va) as (_ & A2). pose proof (valid_finite _ _ _ Vb) as (_ & B2). cbn [FR] in *.
    set (ez := Z.min ea eb).
    assert (X : sgn sa * (IZR (Zpos ma) * p2 ea) - sgn sb * (IZR (Zpos mb) * p2 eb) =
      IZR (cond_Zopp sa (Zpos (fst (shl_align ma ea ez))) - cond_Zopp sb (Zpos (fst (shl_align mb eb ez)))) * p2 ez).
    { rewrite minus_IZR, Rmult_minus_distr_r, !cond_value by (unfold ez; lia). reflexivity. }
    rewrite X in *.
    destruct (normalize_near _ ez ltac:(unfold ez; lia) L) as (V & N & _). split; assumption.
Qed.

(** a remainder [r] of a division by [n] *)
Lemma new_location_located n r q : (0 < n)%Z -> (0 <= r < n)%Z ->
  located (shr_record_of_loc q (new_location n r)) (IZR q + IZR r / IZR n).
Proof.
  intros N B. assert (Pn : 0 < IZR n) by (apply (IZR_lt 0); lia).
  assert (R1 : IZR r / IZR n < 1).
  { apply Rmult_lt_reg_r with (IZR n); [assumption|]. unfold Rdiv. rewrite Rmult_assoc, Rinv_l, Rmult_1_r, Rmult_1_l by lra.
    apply IZR_lt. lia. }
  assert (T : forall c : R, (2 * IZR r < IZR n -> IZR r / IZR n < / 2) /\ (2 * IZR r = IZR n -> IZR r / IZR n = / 2) /\
    (2 * IZR r > IZR n -> IZR r / IZR n > / 2)).
  { intros _. split; [|split]; intros Q.
    - apply Rmult_lt_reg_r with (IZR n); [assumption|]. unfold Rdiv. rewrite Rmult_assoc, Rinv_l, Rmult_1_r by lra. lra.
    - rewrite <- Q. field. lra.
    - apply Rmult_lt_reg_r with (IZR n); [assumption|]. unfold Rdiv. rewrite Rmult_assoc, Rinv_l, Rmult_1_r by lra. lra. }
  specialize (T 0). destruct T as (T1 & T2 & T3).
  assert (Z0 : (r = 0)%Z -> located (shr_record_of_loc q loc_Exact) (IZR q + IZR r / IZR n)).
  { intros ->. unfold located. cbn. lra. }
  assert (Zp : (r <> 0)%Z -> 0 < IZR r / IZR n).
  { intros Nr. apply Rdiv_lt_0_compat; [apply (IZR_lt 0); lia|assumption]. }
  unfold new_location. destruct (Z.even n) eqn:En.
  - unfold new_location_even. destruct (Zeq_bool r 0) eqn:Q; [apply Zeq_bool_eq in Q; auto|]. apply Zeq_bool_neq in Q.
    specialize (Zp Q). unfold located. destruct (Z.compare_spec (2 * r) n) as [C|C|C];
      cbn [shr_record_of_loc shr_m shr_r shr_s within].
    + apply (f_equal IZR) in C. rewrite mult_IZR in C. specialize (T2 C). lra.
    + apply IZR_lt in C. rewrite mult_IZR in C. specialize (T1 C). lra.
    + apply IZR_lt in C. rewrite mult_IZR in C. specialize (T3 C). lra.
  - unfold new_location_odd. destruct (Zeq_bool r 0) eqn:Q; [apply Zeq_bool_eq in Q; auto|]. apply Zeq_bool_neq in Q.
    specialize (Zp Q). rewrite <- Z.negb_odd in En. apply negb_false_iff in En. apply Z.odd_spec in En. destruct En as (j & ->).
    unfold located. destruct (Z.compare_spec (2 * r + 1) (2 * j + 1)) as [C|C|C];
      cbn [shr_record_of_loc shr_m shr_r shr_s within].
    + assert (C' : (2 * r < 2 * j + 1)%Z) by lia. apply IZR_lt in C'. rewrite mult_IZR in C'. specialize (T1 C'). lra.
    + assert (C' : (2 * r < 2 * j + 1)%Z) by lia. apply IZR_lt in C'. rewrite mult_IZR in C'. specialize (T1 C'). lra.
    + assert (C' : (2 * j + 1 < 2 * r)%Z) by lia. apply IZR_lt in C'. rewrite mult_IZR in C'. specialize (T3 C'). lra.
Qed.
Lemma quotient_digits q e k : (0 <= q)%Z -> (2 ^ k <= q)%Z -> (0 <= k)%Z -> (k + 1 + e <= Zdigits2 q + e)%Z.
Proof.
  intros P L K. destruct q as [|q|q]; [pose proof (Z.pow_pos_nonneg 2 k); lia| |lia]. cbn [Zdigits2].
  pose proof (digits_pos q). assert (k < Zpos (digits2_pos q))%Z; [|lia]. apply (Z.pow_lt_mono_r_iff 2); lia.
Qed.
Lemma fe_mono a b : (a <= b)%Z -> (fe a <= fe b)%Z.
Proof. unfold fe. lia. Qed.

Lemma div_near a b : valid a -> valid b -> FR b <> 0 -> Rabs (FR a / FR b) < p2 1023 ->
  valid (SFdiv prec emax a b) /\ near (FR (SFdiv prec emax a b)) (FR a / FR b).
Proof.
  intros Va Vb Nb L. destruct a as [sa|sa| |sa ma ea]; try (destruct Va as (Q & _); discriminate Q);
  destruct b as [sb|sb| |sb mb eb]; try (destruct Vb as (Q & _); discriminate Q); try (now elim Nb);
  cbn [SFdiv FR].
  { split; [apply valid_zero|]. unfold Rdiv. rewrite Rmult_0_l. apply near_refl. }
  apply valid_finite in Va, Vb. destruct Va as (A1 & A2), Vb as (B1 & B2). cbn [FR] in L.
  pose proof (digits_pos ma) as Da. pose proof (digits_pos mb) as Db.
  pose proof (p2_pos ea) as Pea. pose proof (p2_pos eb) as Peb.
  assert (Pa : 0 < IZR (Zpos ma)) by (apply (IZR_lt 0); lia). assert (Pb : 0 < IZR (Zpos mb)) by (apply (IZR_lt 0); lia).
  set (x := IZR (Zpos ma) / IZR (Zpos mb) * p2 (ea - eb)).
  assert (X : sgn sa * (IZR (Zpos ma) * p2 ea) / (sgn sb * (IZR (Zpos mb) * p2 eb)) = sgn (xorb sa sb) * x).
  { unfold x, Z.sub. rewrite p2_add, p2_neg, sgn_xorb. destruct sa, sb; cbn [sgn]; field; lra. }
  assert (X0 : 0 <= x).
  { unfold x. apply Rmult_le_pos; [left; now apply Rdiv_lt_0_compat|left; apply p2_pos]. }
  rewrite X in *. rewrite sgn_abs in L by assumption.
  unfold SFdiv_core_binary. cbn [Zdigits2]. rewrite fexp_fe.
  set (da := Zpos (digits2_pos ma)) in *. set (db := Zpos (digits2_pos mb)) in *.
  set (e1 := Z.min (fe (da + ea - (db + eb))) (ea - eb)). set (s := (ea - eb - e1)%Z).
  assert (S0 : (0 <= s)%Z) by (unfold s, e1; lia).
  assert (M : match s with Z0 => Zpos ma | Zpos _ => Z.shiftl (Zpos ma) s | Zneg _ => 0%Z end = (Zpos ma * 2 ^ s)%Z).
  { destruct s as [|s'|s'] eqn:Q; [lia| |lia]. now rewrite Z.shiftl_mul_pow2 by lia. }
  rewrite M. clear M. set (m := (Zpos ma * 2 ^ s)%Z).
  assert (M0 : (0 < m)%Z) by (unfold m; pose proof (Z.pow_pos_nonneg 2 s); lia).
  pose proof (Z_div_mod m (Zpos mb) ltac:(lia)) as DM. destruct (Z.div_eucl m (Zpos mb)) as [q r].
  destruct DM as (DM & DR).
  assert (Q0 : (0 <= q)%Z) by nia.
  assert (XQ : x / p2 e1 = IZR q + IZR r / IZR (Zpos mb)).
  { replace (IZR q + IZR r / IZR (Zpos mb)) with (IZR m / IZR (Zpos mb)).
    - unfold m, x. rewrite mult_IZR, <- p2_IZR by lia. unfold s.
      replace (ea - eb - e1)%Z with ((ea - eb) + - e1)%Z by lia. rewrite (p2_add _ (- e1)), p2_neg.
      pose proof (p2_pos e1). field. lra.
    - rewrite DM, plus_IZR, mult_IZR. field. lra. }
  pose proof (round_near (xorb sa sb) q e1 (new_location (Zpos mb) r) x Q0) as Rn.
  rewrite XQ in Rn. specialize (Rn (new_location_located (Zpos mb) r q ltac:(lia) DR)).
  destruct Rn as (V & N & _ & _); [|lra|auto].
  set (D := (da + ea - (db + eb))%Z) in *.
  destruct (Z.le_gt_cases (D - e1) 0) as [LD|LD].
  { assert (e1 <= -1074)%Z by (unfold e1, fe in *; lia). unfold fe. lia. }
  apply Z.le_trans with (fe D); [unfold e1; lia|]. apply fe_mono.
  replace D with ((D - e1 - 1) + 1 + e1)%Z by lia. apply quotient_digits; [assumption| |lia].
  assert (2 ^ (D - e1 - 1) < q + 1)%Z; [|lia].
  apply (Z.mul_lt_mono_pos_r (Zpos mb)); [lia|].
  apply Z.lt_le_trans with (2 ^ (D - e1 - 1) * 2 ^ db)%Z.
  { apply Z.mul_lt_mono_pos_l; [apply Z.pow_pos_nonneg; lia|lia]. }
  rewrite <- Z.pow_add_r by (unfold db; lia).
  replace (D - e1 - 1 + db)%Z with ((da - 1) + s)%Z by (unfold D, s; lia).
  rewrite Z.pow_add_r by (unfold da; lia). apply Z.le_trans with m.
  - unfold m. apply Z.mul_le_mono_nonneg_r; [apply Z.pow_nonneg; lia|lia].
  - nia.
Qed.

Lemma half_bounds n : (2 * (n / 2) <= n <= 2 * (n / 2) + 1)%Z.
Proof. pose proof (Z.div_mod n 2 ltac:(lia)). pose proof (Z.mod_pos_bound n 2 ltac:(lia)). lia. Qed.
Lemma sqrt_near a : valid a -> 0 <= FR a ->
  valid (SFsqrt prec emax a) /\ near (FR (SFsqrt prec emax a)) (sqrt (FR a)).
Proof.
  intros Va P. destruct a as [sa|sa| |sa ma ea]; try (destruct Va as (Q & _); discriminate Q); cbn [SFsqrt].
  { split; [apply valid_zero|]. cbn [FR]. rewrite sqrt_0. apply near_refl. }
  apply valid_finite in Va. destruct Va as (A1 & A2). cbn [FR] in *.
  pose proof (digits_pos ma) as Da. pose proof (p2_pos ea) as Pea.
  assert (Pa : 0 < IZR (Zpos ma)) by (apply (IZR_lt 0); lia).
  destruct sa; cbn [sgn] in P; [nra|]. cbn [sgn] in *. rewrite Rmult_1_l in *.
  unfold SFsqrt_core_binary. cbn [Zdigits2]. rewrite fexp_fe, !Z.div2_div.
  set (da := Zpos (digits2_pos ma)) in *. set (c := ((da + ea + 1) / 2)%Z).
  set (e1 := Z.min (fe c) (ea / 2)). set (s := (ea - 2 * e1)%Z).
  assert (S0 : (0 <= s)%Z) by (pose proof (half_bounds ea); unfold s, e1; lia).
  assert (M : match s with Z0 => Zpos ma | Zpos p => Z.shiftl (Zpos ma) s | Zneg _ => 0%Z end = (Zpos ma * 2 ^ s)%Z).
  { destruct s as [|s'|s'] eqn:Q; [lia| |lia]. now rewrite Z.shiftl_mul_pow2 by lia. }
  rewrite M. clear M. set (m := (Zpos ma * 2 ^ s)%Z).
  assert (M0 : (0 < m)%Z) by (unfold m; pose proof (Z.pow_pos_nonneg 2 s); lia).
  pose proof (Z.sqrtrem_spec m ltac:(lia)) as SR. destruct (Z.sqrtrem m) as [q r]. destruct SR as (SM & SB).
  assert (Q0 : (0 <= q)%Z) by lia.
  set (x := sqrt (IZR (Zpos ma) * p2 ea)).
  assert (XQ : x / p2 e1 = sqrt (IZR m)).
  { pose proof (p2_pos e1) as P1. apply Rmult_eq_reg_r with (p2 e1); [|lra].
    unfold Rdiv. rewrite Rmult_assoc, Rinv_l, Rmult_1_r by lra.
    rewrite <- (sqrt_Rsqr (p2 e1)) by lra. rewrite <- sqrt_mult_alt by (apply (IZR_le 0); lia). unfold x. f_equal.
    unfold m. rewrite mult_IZR, <- p2_IZR by lia. rewrite Rmult_assoc. f_equal. unfold Rsqr. rewrite <- !p2_add. f_equal.
    unfold s. lia. }
  assert (XP : 0 <= x) by apply sqrt_pos.
  assert (Pm : 0 <= IZR m) by (apply (IZR_le 0); lia).
  assert (Pq : 0 <= IZR q) by (apply (IZR_le 0); lia).
  pose proof (sqrt_sqrt (IZR m) Pm) as SS. pose proof (sqrt_pos (IZR m)) as SP.
  assert (MR : IZR m = IZR q * IZR q + IZR r) by (rewrite SM, plus_IZR, mult_IZR; reflexivity).
  assert (Lc : located (shr_record_of_loc q (if Zeq_bool r 0 then loc_Exact else loc_Inexact (if (r <=? q)%Z then Lt else Gt)))
                 (sqrt (IZR m))).
  { destruct (Zeq_bool r 0) eqn:Q.
    - apply Zeq_bool_eq in Q. unfold located. cbn [shr_record_of_loc shr_m shr_r shr_s within].
      rewrite MR, Q, Rplus_0_r. now rewrite sqrt_square.
    - apply Zeq_bool_neq in Q. assert (R0 : 0 < IZR r) by (apply (IZR_lt 0); lia).
      assert (U : sqrt (IZR m) < IZR q + 1).
      { assert (R1 : IZR r <= 2 * IZR q) by (rewrite <- mult_IZR; apply IZR_le; lia).
        apply Rnot_le_lt. intros G. assert ((IZR q + 1) * (IZR q + 1) <= sqrt (IZR m) * sqrt (IZR m)) by (apply Rmult_le_compat; lra). nra. }
      assert (W : IZR q < sqrt (IZR m)).
      { apply Rnot_le_lt. intros G. assert (sqrt (IZR m) * sqrt (IZR m) <= IZR q * IZR q) by (apply Rmult_le_compat; lra). nra. }
      unfold located. destruct (Z.leb_spec r q) as [G|G]; cbn [shr_record_of_loc shr_m shr_r shr_s within].
      + split; [lra|]. apply IZR_le in G. apply Rnot_le_lt. intros K.
        assert ((IZR q + / 2) * (IZR q + / 2) <= sqrt (IZR m) * sqrt (IZR m)) by (apply Rmult_le_compat; lra). nra.
      + split; [|lra]. assert (G' : (q + 1 <= r)%Z) by lia. apply IZR_le in G'. rewrite plus_IZR in G'. apply Rnot_le_lt. intros K.
        assert (sqrt (IZR m) * sqrt (IZR m) <= (IZR q + / 2) * (IZR q + / 2)) by (apply Rmult_le_compat; lra). nra. }
  pose proof (round_near false q e1 (if Zeq_bool r 0 then loc_Exact else loc_Inexact (if (r <=? q)%Z then Lt else Gt)) x Q0) as Rn.
  rewrite XQ in Rn. specialize (Rn Lc). cbn [sgn] in Rn. rewrite Rmult_1_l in Rn.
  destruct Rn as (V & N & _ & _); [| |auto].
  - apply Z.le_trans with (fe c); [unfold e1; lia|]. apply fe_mono.
    assert (D0 : (0 <= da - 1 + s)%Z) by (unfold da; lia).
    replace c with ((da - 1 + s) / 2 + 1 + e1)%Z
      by (pose proof (half_bounds (da - 1 + s)); pose proof (half_bounds (da + ea + 1)); unfold c, s in *; lia).
    set (k := ((da - 1 + s) / 2)%Z).
    assert (K0 : (0 <= k /\ k + k <= da - 1 + s)%Z) by (pose proof (half_bounds (da - 1 + s)); unfold k; lia).
    apply quotient_digits; [assumption| |lia].
    assert (K : (2 ^ k * 2 ^ k <= m)%Z).
    { rewrite <- Z.pow_add_r by lia. apply Z.le_trans with (2 ^ (da - 1 + s))%Z.
      - apply Z.pow_le_mono_r; lia.
      - rewrite Z.pow_add_r by (unfold da; lia). unfold m. apply Z.mul_le_mono_nonneg_r; [apply Z.pow_nonneg; lia|lia]. }
    assert (2 ^ k < q + 1)%Z; [|lia]. apply Z.nle_gt. intros G.
    assert ((q + 1) * (q + 1) <= 2 ^ k * 2 ^ k)%Z by (apply Z.mul_le_mono_nonneg; lia). nia.
  - assert (B : IZR (Zpos ma) * p2 ea <= p2 1023 * p2 1023).
    { rewrite <- p2_add. apply Rle_trans with (p2 (da + ea)).
      - rewrite p2_add. apply Rmult_le_compat_r; [lra|]. rewrite p2_IZR by (unfold da; lia). apply IZR_le. lia.
      - apply p2_le. unfold fe in A1. fold da in A1. lia. }
    assert (B1 : IZR (Zpos ma) * p2 ea < p2 1023 * p2 1023).
    { rewrite <- p2_add in *. apply Rle_lt_trans with (p2 (da + ea)).
      - rewrite p2_add. apply Rmult_le_compat_r; [lra|]. rewrite p2_IZR by (unfold da; lia). apply IZR_le. lia.
      - apply p2_lt. unfold fe in A1. fold da in A1. lia. }
    unfold x. split; [apply sqrt_pos|]. pose proof (p2_pos 1023) as P1.
    rewrite <- (sqrt_Rsqr (p2 1023)) by lra. apply sqrt_lt_1_alt. unfold Rsqr. split; [nra|assumption].
Qed.

(** ** Comparisons are exact *)
Lemma finite_lt m1 e1 m2 e2 s1 s2 : valid (S754_finite s1 m1 e1) -> valid (S754_finite s2 m2 e2) -> (e1 < e2)%Z ->
  IZR (Zpos m1) * p2 e1 < IZR (Zpos m2) * p2 e2.
Proof.
  intros Va Vb L. apply valid_finite in Va, Vb. destruct Va as (A1 & A2), Vb as (B1 & B2).
  pose proof (digits_pos m1) as Da. pose proof (digits_pos m2) as Db.
  set (d1 := Zpos (digits2_pos m1)) in *. set (d2 := Zpos (digits2_pos m2)) in *.
  apply Rlt_le_trans with (p2 (d1 + e1)).
  - rewrite p2_add. apply Rmult_lt_compat_r; [apply p2_pos|]. rewrite p2_IZR by (unfold d1; lia). apply IZR_lt. lia.
  - apply Rle_trans with (p2 (d2 - 1 + e2)).
    + apply p2_le. unfold fe in *. lia.
    + rewrite p2_add. apply Rmult_le_compat_r; [left; apply p2_pos|]. rewrite p2_IZR by (unfold d2; lia). apply IZR_le. lia.
Qed.
Lemma compare_FR a b : valid a -> valid b ->
  match SFcompare a b with
  | Some Lt => FR a < FR b | Some Eq => FR a = FR b | Some Gt => FR b < FR a | None => False
  end.
Proof.
  intros Va Vb. destruct a as [sa|sa| |sa ma ea]; try (destruct Va as (Q & _); discriminate Q);
  destruct b as [sb|sb| |sb mb eb]; try (destruct Vb as (Q & _); discriminate Q); cbn [SFcompare FR].
  - reflexivity.
  - assert (0 < IZR (Zpos mb) * p2 eb) by (apply Rmult_lt_0_compat; [apply (IZR_lt 0); lia|apply p2_pos]).
    destruct sb; cbn [sgn]; lra.
  - assert (0 < IZR (Zpos ma) * p2 ea) by (apply Rmult_lt_0_compat; [apply (IZR_lt 0); lia|apply p2_pos]).
    destruct sa; cbn [sgn]; lra.
  - assert (0 < IZR (Zpos ma) * p2 ea) by (apply Rmult_lt_0_compat; [apply (IZR_lt 0); lia|apply p2_pos]).
    assert (0 < IZR (Zpos mb) * p2 eb) by (apply Rmult_lt_0_compat; [apply (IZR_lt 0); lia|apply p2_pos]).
    pose proof (p2_pos ea) as Pe.
    assert (E : forall c, Pos.compare ma mb = c -> ea = eb ->
      match c with Lt => IZR (Zpos ma) * p2 ea < IZR (Zpos mb) * p2 eb
      | Eq => IZR (Zpos ma) * p2 ea = IZR (Zpos mb) * p2 eb | Gt => IZR (Zpos mb) * p2 eb < IZR (Zpos ma) * p2 ea end).
    { intros c <- <-. destruct (Pos.compare_spec ma mb) as [->|C|C]; [reflexivity| |].
      - apply Rmult_lt_compat_r; [assumption|]. now apply IZR_lt.
      - apply Rmult_lt_compat_r; [assumption|]. now apply IZR_lt. }
    destruct sa, sb; cbn [sgn]; try lra; destruct (Z.compare_spec ea eb) as [C|C|C].
    + specialize (E _ eq_refl C). change (Pos.compare_cont Eq ma mb) with (Pos.compare ma mb). destruct (Pos.compare ma mb); cbn [CompOpp]; lra.
    + pose proof (finite_lt _ _ _ _ _ _ Va Vb C). lra.
    + pose proof (finite_lt _ _ _ _ _ _ Vb Va C). lra.
    + specialize (E _ eq_refl C). change (Pos.compare_cont Eq ma mb) with (Pos.compare ma mb). destruct (Pos.compare ma mb); lra.
    + pose proof (finite_lt _ _ _ _ _ _ Va Vb C). lra.
    + pose proof (finite_lt _ _ _ _ _ _ Vb Va C). lra.
Qed.

(** ** Integers and literals *)
Lemma IZR_1023 z : (Z.abs z < 2 ^ 1000)%Z -> Rabs (IZR z * p2 0) < p2 1023.
Proof.
  intros L. rewrite p2_0, Rmult_1_r, <- abs_IZR. apply Rlt_trans with (p2 1000); [|apply p2_lt; lia].
  rewrite p2_IZR by lia. now apply IZR_lt.
Qed.
Lemma int_exact z : (Z.abs z < 2 ^ 53)%Z -> valid (f_of_Z z) /\ FR (f_of_Z z) = IZR z.
Proof.
  intros L. destruct (normalize_near z 0 ltac:(lia)) as (V & _ & E).
  { apply IZR_1023. apply Z.lt_trans with (1 := L). apply Z.pow_lt_mono_r; lia. }
  split; [exact V|]. unfold f_of_Z, of_Z_exp. rewrite E by assumption. rewrite p2_0. lra.
Qed.
