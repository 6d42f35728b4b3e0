(** * FactorNear: the computed ordinary factor of a circle against the exact factor of its slices. *)
From Coq Require Import ZArith Reals Lra Lia Bool List SpecFloat.
From Verif Require Import Num FloatNum RealNum Py Objects Slope Planes Analysis RoundTheory NearFacts SumNear WeightNear FosNear
     CircleNear WaterNear SliceNear SinNear AtanNear AngleNear TanNear.
Import ListNotations.
Local Open Scope R_scope.

(** ** Signs: no operation on numbers that are not negative gives a negative one *)
Definition above (x : float) : Prop :=
  match x with S754_finite true _ _ | S754_infinity true => False | _ => True end.
Lemma above_FR x : above x -> 0 <= FR x.
Proof.
  destruct x as [s|s| |s m e]; cbn [above FR]; try lra. destruct s; [contradiction|]. intros _. cbn [sgn].
  rewrite Rmult_1_l. apply Rmult_le_pos; [apply (IZR_le 0); lia|left; apply p2_pos].
Qed.
Lemma FR_above x : valid x -> 0 <= FR x -> above x.
Proof.
  intros (F & V). destruct x as [s|s| |s m e]; try discriminate F; cbn [above FR]; [intros; exact I|]. destruct s; [|intros; exact I].
  intros H. cbn [sgn] in H. assert (0 < IZR (Zpos m) * p2 e) by (apply Rmult_lt_0_compat; [apply (IZR_lt 0); lia|apply p2_pos]). lra.
Qed.
Lemma above_round m e l : above (binary_round_aux prec emax false m e l).
Proof.
  unfold binary_round_aux. destruct (shr_fexp _ _ _ _ _) as (q, f). destruct (shr_fexp _ _ _ _ _) as (q', f').
  destruct (shr_m q'); cbn [above]; try exact I. destruct (f' <=? _)%Z; exact I.
Qed.
Lemma above_add a b : above a -> above b -> above (nadd a b).
Proof.
  cbn [nadd FNum]. destruct a as [[]|[]| |[] ma ea], b as [[]|[]| |[] mb eb]; cbn [above SFadd Bool.eqb]; try tauto. intros _ _.
  unfold binary_normalize. cbn [cond_Zopp Z.add]. unfold binary_round. destruct (shl_align _ _ _) as (m, e). apply above_round.
Qed.
Lemma above_mul a b : above a -> above b -> above (nmul a b).
Proof.
  cbn [nmul FNum]. destruct a as [[]|[]| |[] ma ea], b as [[]|[]| |[] mb eb]; cbn [above SFmul xorb]; try tauto. intros _ _.
  apply above_round.
Qed.
Lemma above_max x : above (pymax x (nz 0)).
Proof.
  unfold pymax. change (@nz float FNum 0) with (S754_zero false). cbn [nltb FNum]. unfold SFltb.
  destruct x as [[]|[]| |[] m e]; cbn [SFcompare above]; exact I.
Qed.
Lemma above_clip x : above (if nltb x (nz 0) then nz 0 else x).
Proof.
  change (@nz float FNum 0) with (S754_zero false). cbn [nltb FNum]. unfold SFltb.
  destruct x as [[]|[]| |[] m e]; cbn [SFcompare above]; exact I.
Qed.
Lemma above_fold {A} (op : float -> A -> float) l : (forall w a, In a l -> above w -> above (op w a)) -> forall w, above w -> above (fold_left op l w).
Proof.
  induction l as [|a l IH]; intros H w W; [exact W|]. cbn [fold_left]. apply IH; [intros; apply H; [right|]; assumption|].
  apply H; [now left|exact W].
Qed.
Lemma weight_above (v : view float) water cx cy r b x mat : plain_view v -> valid b -> 0 <= FR b ->
  above (sl_W (make_slice v water cx cy r b x mat)).
Proof.
  intros (Te & Fm & Fu & Fl & _) Vb Bb. cbn [make_slice sl_W]. rewrite Forall_forall in *.
  apply above_fold.
  { intros w (c & m) I W. destruct (Fl _ I) as (_ & (Vm & Bm)). unfold ll_on. destruct (_ && _); [|exact W].
    apply above_add; [exact W|]. apply FR_above; assumption. }
  apply above_fold.
  { intros w ((l & r') & m) I W. destruct (Fu _ I) as (_ & _ & (Vm & Bm)). unfold udl_on. apply above_add; [exact W|].
    apply above_mul; [apply above_max|]. apply FR_above; assumption. }
  unfold strip_weight. apply above_mul; [|apply FR_above; assumption]. apply above_fold; [|exact I].
  intros w ((t & bt) & uw) I W. apply above_add; [exact W|]. unfold layer_weight. apply above_mul; [|apply above_clip].
  assert (H : heavy uw).
  { clear -Fm I. revert I. generalize (g_ext_h (v_geom v)) as top. induction (v_mats v) as [|(rl, m) l IH]; intros top I; [contradiction|].
    destruct l as [|p l].
    - cbn [layers] in I. destruct I as [I|[]]. injection I as <- <- <-. apply (Fm (rl, m)). now left.
    - change (layers top ((rl, m) :: p :: l)) with ((top, Some rl, m_unit_weight m) :: layers rl (p :: l)) in I. destruct I as [I|I].
      + injection I as <- <- <-. apply (Fm (rl, m)). now left.
      + apply IH with (top := rl); [|exact I]. intros q Q. apply Fm. now right. }
  destruct H. apply FR_above; assumption.
Qed.
Lemma water_above (v : view float) water cx cy r b x mat : valid (v_water_H v) -> 0 <= FR (v_water_H v) ->
  above (sl_u (make_slice v water cx cy r b x mat)).
Proof.
  intros VH BH. cbn [make_slice sl_u]. destruct water as [(rl & xw)|]; [|exact I]. unfold water_u.
  apply above_mul; [apply above_mul; [apply above_max|]|].
  - vm_compute. exact I.
  - destruct (_ && _); [apply FR_above; assumption|vm_compute; exact I].
Qed.

(** ** A slice of exact numbers *)
Record body : Type := Body { bW : R; bc : R; bt : R; bu : R; bco : R; bsi : R }.
Definition sound (b : R) (k : body) : Prop :=
  0 <= b /\ 0 <= bW k /\ 0 <= bc k /\ 0 <= bt k /\ 0 <= bu k /\ 0 < bco k <= 1 /\ Rabs (bsi k) <= 1.
Definition base_x (b : R) (k : body) : R := b / bco k.
Definition hold_x (b : R) (k : body) : R :=
  bc k * base_x b k + Rmax 0 (bW k * bco k - bu k * base_x b k) * bt k.
Definition gross_x (b : R) (k : body) : R :=
  bc k * base_x b k + (bW k * bco k + bu k * base_x b k) * bt k.
Definition pull_x (k : body) : R := bW k * bsi k.
Definition pull_gross_x (k : body) : R := bW k * Rabs (bsi k).

(** how far the numbers of a slice may be from those of its body: weight, water pressure, sine and
    cosine, coefficient of friction *)
Record off : Type := Off { oW : R; ou : R; oa : R; ot : R }.
Definition stands (s : slice float) (k : body) (o : off) : Prop :=
  Rabs (FR (sl_W s) - bW k) <= oW o /\ FR (sl_c s) = bc k /\ Rabs (FR (sl_tan s) - bt k) <= ot o /\
  Rabs (FR (sl_u s) - bu k) <= ou o /\ Rabs (FR (sl_cos s) - bco k) <= oa o /\ Rabs (FR (sl_sin s) - bsi k) <= oa o /\
  2 * oa o <= bco k.
(** what that does to the resistance and to the pull *)
Definition hold_off (b : R) (k : body) (o : off) : R :=
  2 * (bc k * base_x b k * (oa o / bco k)) +
  (oW o + bW k * oa o + 2 * (base_x b k * ou o) + 2 * (bu k * base_x b k * (oa o / bco k))) * (bt k + ot o) +
  (bW k + bu k * base_x b k) * ot o.
Definition pull_off (k : body) (o : off) : R := oW o + bW k * oa o.

Lemma prod_near a a' b b' da db : Rabs (a' - a) <= da -> Rabs (b' - b) <= db -> 0 <= a -> 0 <= b' ->
  Rabs (a' * b' - a * b) <= da * b' + a * db.
Proof.
  intros A B Pa Pb. replace (a' * b' - a * b) with ((a' - a) * b' + a * (b' - b)) by ring. apply Rle_trans with (1 := Rabs_triang _ _).
  rewrite !Rabs_mult, (Rabs_right b'), (Rabs_right a) by lra. apply Rplus_le_compat; [apply Rmult_le_compat_r|apply Rmult_le_compat_l]; lra.
Qed.
Section One.
  Context (b : R) (s : slice float) (k : body) (o : off) (K : sound b k) (P : plain_slice s) (S : stands s k o).
  Let co' := FR (sl_cos s).
  Lemma offs : 0 <= oW o /\ 0 <= ou o /\ 0 <= oa o /\ 0 <= ot o.
  Proof.
    destruct S as (S1 & _ & S2 & S3 & S4 & _). pose proof (Rabs_pos (FR (sl_W s) - bW k)). pose proof (Rabs_pos (FR (sl_tan s) - bt k)).
    pose proof (Rabs_pos (FR (sl_u s) - bu k)). pose proof (Rabs_pos (FR (sl_cos s) - bco k)). lra.
  Qed.
  Lemma base_x_pos : 0 <= base_x b k.
  Proof. destruct K as (Kb & _ & _ & _ & _ & Kc & _). unfold base_x. apply Rmult_le_pos; [lra|left; apply Rinv_0_lt_compat; lra]. Qed.
  Lemma base_x_near : 0 <= base_len b s <= 2 * base_x b k /\ Rabs (base_len b s - base_x b k) <= 2 * (base_x b k * (oa o / bco k)).
  Proof.
    destruct S as (_ & _ & _ & _ & Sc & _ & Sh). destruct K as (Kb & _ & _ & _ & _ & Kc & _). pose proof offs as (_ & _ & Oa & _).
    pose proof base_x_pos as X0. unfold base_len, base_x in *. fold co' in Sc |- *. set (co := bco k) in *. pose proof (abs_span _ _ Sc) as Sp.
    assert (C2 : / 2 * co <= co') by lra. assert (Cp : 0 < co') by lra.
    assert (I : 0 < / co' <= 2 / co).
    { split; [apply Rinv_0_lt_compat; lra|]. replace (2 / co) with (/ (/ 2 * co)) by (field; lra). apply Rinv_le_contravar; lra. }
    split.
    - unfold Rdiv at 1 2. split; [apply Rmult_le_pos; lra|]. replace (2 * (b / co)) with (b * (2 / co)) by (field; lra). apply Rmult_le_compat_l; lra.
    - replace (b / co' - b / co) with ((b / co) * ((co - co') * / co')) by (field; lra).
      rewrite Rabs_mult, (Rabs_right (b / co)), Rabs_mult, (Rabs_right (/ co')), (Rabs_minus_sym co co') by lra.
      replace (2 * (b / co * (oa o / co))) with (b / co * (oa o * (2 / co))) by (field; lra). apply Rmult_le_compat_l; [exact X0|].
      apply Rmult_le_compat; try lra. apply Rabs_pos.
  Qed.
  Lemma pull_x_near : Rabs (pull s - pull_x k) <= pull_off k o /\ pull_gross s <= pull_gross_x k + pull_off k o.
  Proof.
    destruct S as (SW & _ & _ & _ & _ & Ss & _). destruct K as (_ & KW & _ & _ & _ & _ & _). destruct P as ((_ & BW) & _ & _ & _ & _ & (_ & Bs)).
    pose proof offs as (OW & _). unfold pull, pull_x, pull_gross, pull_gross_x, pull_off.
    assert (Q : forall f : R -> R, Rabs (f (FR (sl_sin s)) - f (bsi k)) <= oa o -> Rabs (f (FR (sl_sin s))) <= 1 ->
      Rabs (FR (sl_W s) * f (FR (sl_sin s)) - bW k * f (bsi k)) <= oW o + bW k * oa o).
    { intros f A B. set (y := f (FR (sl_sin s))) in *. set (z := f (bsi k)) in *.
      replace (FR (sl_W s) * y - bW k * z) with ((FR (sl_W s) - bW k) * y + bW k * (y - z)) by ring.
      apply Rle_trans with (1 := Rabs_triang _ _). rewrite !Rabs_mult, (Rabs_right (bW k)) by lra. apply Rplus_le_compat.
      - replace (oW o) with (oW o * 1) by ring. apply Rmult_le_compat; try lra; apply Rabs_pos.
      - apply Rmult_le_compat_l; lra. }
    split; [apply (Q (fun y => y)); assumption|]. specialize (Q Rabs). rewrite Rabs_Rabsolu in Q.
    assert (A : Rabs (Rabs (FR (sl_sin s)) - Rabs (bsi k)) <= oa o) by (apply Rle_trans with (1 := Rabs_triang_inv2 _ _); assumption).
    specialize (Q A Bs). apply abs_span in Q. lra.
  Qed.
  Lemma hold_x_near : Rabs (hold b s - hold_x b k) <= hold_off b k o /\ hold_gross b s <= gross_x b k + hold_off b k o /\
    0 <= hold_x b k <= gross_x b k /\ 0 <= hold_off b k o.
  Proof.
    pose proof base_x_near as (L1 & L2). pose proof base_x_pos as L0. pose proof offs as (OW & Ou & Oa & Ot).
    destruct S as (SW & Sc & St & Su & Sa & _ & Sh). destruct K as (Kb & KW & Kc & Kt & Ku & Kco & _).
    destruct P as ((_ & BW) & _ & (_ & BT) & (_ & BU) & (_ & BC) & _). fold co' in Sa, BC.
    unfold hold, hold_gross, hold_x, gross_x, hold_off. rewrite Sc. fold co'. set (l' := base_len b s) in *. set (l := base_x b k) in *.
    set (a := oa o / bco k) in *. assert (A0 : 0 <= a) by (unfold a; apply Rmult_le_pos; [lra|left; apply Rinv_0_lt_compat; lra]).
    pose proof (p2_pos (-100)) as P100.
    assert (N1 : Rabs (FR (sl_W s) * co' - bW k * bco k) <= oW o + bW k * oa o).
    { apply Rle_trans with (1 := prod_near _ _ _ _ _ _ SW Sa KW ltac:(lra)). assert (oW o * co' <= oW o * 1) by (apply Rmult_le_compat_l; lra). lra. }
    assert (N2 : Rabs (FR (sl_u s) * l' - bu k * l) <= 2 * (l * ou o) + 2 * (bu k * l * a)).
    { apply Rle_trans with (1 := prod_near _ _ _ _ _ _ Su L2 Ku ltac:(lra)). assert (ou o * l' <= ou o * (2 * l)) by (apply Rmult_le_compat_l; lra). lra. }
    assert (N3 : Rabs (bc k * l' - bc k * l) <= 2 * (bc k * l * a)).
    { apply Rle_trans with (1 := times_near (bc k) l' l _ Kc L2). lra. }
    set (dN := oW o + bW k * oa o + 2 * (l * ou o) + 2 * (bu k * l * a)).
    assert (UL : 0 <= bu k * l) by (apply Rmult_le_pos; lra). assert (ULA : 0 <= bu k * l * a) by (apply Rmult_le_pos; lra).
    assert (WO : 0 <= bW k * oa o) by (apply Rmult_le_pos; lra). assert (LO : 0 <= l * ou o) by (apply Rmult_le_pos; lra).
    assert (CL : 0 <= bc k * l) by (apply Rmult_le_pos; lra). assert (CLA : 0 <= bc k * l * a) by (apply Rmult_le_pos; lra).
    assert (WC : 0 <= bW k * bco k <= bW k) by (split; [apply Rmult_le_pos; lra|]; replace (bW k) with (bW k * 1) at 2 by ring; apply Rmult_le_compat_l; lra).
    assert (D0 : 0 <= dN) by (unfold dN; lra). pose proof (abs_span _ _ St) as St'.
    set (N := bW k * bco k - bu k * l) in *. set (N' := FR (sl_W s) * co' - FR (sl_u s) * l') in *.
    assert (NN : Rabs (N' - N) <= dN) by (unfold N', N, dN; apply abs_span in N1, N2; apply Rabs_le; lra).
    assert (MM : Rabs (Rmax 0 N' - Rmax 0 N) <= dN) by (apply Rmax_near; [apply same_near; exact D0|exact NN]).
    assert (GG : Rabs ((FR (sl_W s) * co' + FR (sl_u s) * l') - (bW k * bco k + bu k * l)) <= dN) by (unfold dN; apply abs_span in N1, N2; apply Rabs_le; lra).
    assert (T1 : dN * FR (sl_tan s) <= dN * (bt k + ot o)) by (apply Rmult_le_compat_l; lra).
    assert (M0 : 0 <= Rmax 0 N <= bW k + bu k * l) by (split; [apply Rmax_l|apply Rmax_lub; unfold N; lra]).
    assert (M1 : Rmax 0 N <= bW k * bco k + bu k * l) by (apply Rmax_lub; unfold N; lra).
    assert (T0 : 0 <= dN * (bt k + ot o)) by (apply Rmult_le_pos; lra).
    assert (T2 : 0 <= (bW k + bu k * l) * ot o) by (apply Rmult_le_pos; lra).
    assert (MT : Rmax 0 N * ot o <= (bW k + bu k * l) * ot o) by (apply Rmult_le_compat_r; lra).
    assert (GT : (bW k * bco k + bu k * l) * ot o <= (bW k + bu k * l) * ot o) by (apply Rmult_le_compat_r; lra).
    pose proof (prod_near _ _ _ _ _ _ MM St (proj1 M0) (proj1 BT)) as R1.
    pose proof (prod_near _ _ _ _ _ _ GG St ltac:(lra) (proj1 BT)) as R2.
    apply abs_span in R1, R2, N3. split; [apply Rabs_le; lra|]. split; [lra|]. split; [|lra]. split.
    - apply Rplus_le_le_0_compat; [exact CL|apply Rmult_le_pos; lra].
    - apply Rplus_le_compat_l. apply Rmult_le_compat_r; lra.
  Qed.
End One.

Lemma total_le {A} (f g : A -> R) l : Forall (fun a => f a <= g a) l -> total f l <= total g l.
Proof. induction 1 as [|a l P F IH]; [cbn; lra|]. cbn [total fold_right]. fold (total f l) (total g l). lra. Qed.
Lemma total_plus {A} (f g : A -> R) l : total (fun a => f a + g a) l = total f l + total g l.
Proof. induction l as [|a l IH]; [cbn; lra|]. cbn [total fold_right]. fold (total f l) (total g l) (total (fun a => f a + g a) l). lra. Qed.
Lemma total_near {A} (f g d : A -> R) l : Forall (fun a => Rabs (f a - g a) <= d a) l -> Rabs (total f l - total g l) <= total d l.
Proof.
  induction 1 as [|a l P F IH]; [cbn; rewrite Rminus_eq_0, Rabs_R0; lra|]. cbn [total fold_right]. fold (total f l) (total g l) (total d l).
  apply abs_span in P, IH. apply Rabs_le. lra.
Qed.

Section Sums.
  Context (b : float) (sl : list (slice float)) (k : slice float -> body) (o : slice float -> off).
  Context (Mb : mild b) (N : INR (List.length sl) <= 1000000000000).
  Context (F : Forall (fun s => plain_slice s /\ sound (FR b) (k s) /\ stands s (k s) (o s)) sl).
  Let n := INR (List.length sl).
  Let HX := total (fun s => hold_x (FR b) (k s)) sl.
  Let DX := total (fun s => pull_x (k s)) sl.
  Let e1 := (2 * n + 9) * u * total (fun s => gross_x (FR b) (k s)) sl + 2 * total (fun s => hold_off (FR b) (k s) (o s)) sl + 2 * n * dust.
  Let e2 := (2 * n + 9) * u * total (fun s => pull_gross_x (k s)) sl + 2 * total (fun s => pull_off (k s) (o s)) sl + 2 * n * dust.
  Lemma plain_all : Forall plain_slice sl.
  Proof. apply Forall_impl with (2 := F). tauto. Qed.
  Lemma few_n : 0 <= n /\ 0 <= (2 * n + 9) * u <= 1.
  Proof.
    assert (0 <= n) by apply pos_INR. fold n in N. pose proof u_pos. split; [assumption|]. split; [apply Rmult_le_pos; lra|].
    apply Rle_trans with (3000000000000 * u); [apply Rmult_le_compat_r; lra|]. rewrite u_val. lra.
  Qed.
  Lemma hold_sums : HX - e1 <= FR (res_f b sl) <= HX + e1 /\ 0 <= HX /\ 9 * u * HX <= e1.
  Proof.
    destruct (res_span b sl Mb plain_all N) as (_ & Sp). destruct few_n as (n0 & K). set (q := (2 * n + 9) * u) in *.
    set (G := total (fun s => gross_x (FR b) (k s)) sl) in *. set (O := total (fun s => hold_off (FR b) (k s) (o s)) sl) in *.
    assert (A : Rabs (total (hold (FR b)) sl - HX) <= O).
    { apply (total_near (hold (FR b)) (fun s => hold_x (FR b) (k s)) (fun s => hold_off (FR b) (k s) (o s))). apply Forall_impl with (2 := F).
      intros s (P & S & St). apply (hold_x_near (FR b) s (k s) (o s) S P St). }
    assert (B : total (hold_gross (FR b)) sl <= G + O).
    { unfold G, O. rewrite <- total_plus. apply total_le. apply Forall_impl with (2 := F). intros s (P & S & St).
      apply (hold_x_near (FR b) s (k s) (o s) S P St). }
    assert (C : 0 <= HX <= G).
    { split; [apply total_nonneg|apply total_le]; apply Forall_impl with (2 := F); intros s (P & S & St); apply (hold_x_near (FR b) s (k s) (o s) S P St). }
    assert (D : 0 <= O) by (apply total_nonneg; apply Forall_impl with (2 := F); intros s (P & S & St); apply (hold_x_near (FR b) s (k s) (o s) S P St)).
    unfold hold_error in Sp. fold n in Sp. fold q in Sp. apply abs_span in A. pose proof dust_pos.
    assert (E : q * total (hold_gross (FR b)) sl <= q * G + O).
    { apply Rle_trans with (q * (G + O)); [apply Rmult_le_compat_l; lra|]. assert (q * O <= 1 * O) by (apply Rmult_le_compat_r; lra). lra. }
    unfold e1. fold q. fold G O. assert (ND : 0 <= n * dust) by (apply Rmult_le_pos; lra).
    assert (Q9 : 9 * u <= q) by (unfold q; apply Rmult_le_compat_r; [left; apply u_pos|lra]).
    assert (9 * u * HX <= q * G) by (pose proof u_pos; apply Rmult_le_compat; lra).
    split; [|split]; lra.
  Qed.
  Lemma pull_sums : DX - e2 <= FR (drv_f sl) <= DX + e2 /\ 0 <= e2.
  Proof.
    destruct (drv_span sl plain_all N) as (_ & Sp). destruct few_n as (n0 & K). set (q := (2 * n + 9) * u) in *.
    set (G := total (fun s => pull_gross_x (k s)) sl) in *. set (O := total (fun s => pull_off (k s) (o s)) sl) in *.
    assert (A : Rabs (total pull sl - DX) <= O).
    { apply (total_near pull (fun s => pull_x (k s)) (fun s => pull_off (k s) (o s))). apply Forall_impl with (2 := F).
      intros s (P & S & St). apply (pull_x_near (FR b) s (k s) (o s) S P St). }
    assert (B : total pull_gross sl <= G + O).
    { unfold G, O. rewrite <- total_plus. apply total_le. apply Forall_impl with (2 := F). intros s (P & S & St).
      apply (pull_x_near (FR b) s (k s) (o s) S P St). }
    assert (D : 0 <= O) by (pose proof (Rabs_pos (total pull sl - DX)); lra).
    assert (G0 : 0 <= G).
    { apply total_nonneg. apply Forall_impl with (2 := F). intros s (P & (_ & KW & _) & St). apply Rmult_le_pos; [exact KW|apply Rabs_pos]. }
    unfold pull_error in Sp. fold n in Sp. fold q in Sp. apply abs_span in A. pose proof dust_pos.
    assert (E : q * total pull_gross sl <= q * G + O).
    { apply Rle_trans with (q * (G + O)); [apply Rmult_le_compat_l; lra|]. assert (q * O <= 1 * O) by (apply Rmult_le_compat_r; lra). lra. }
    unfold e2. fold q. fold G O. assert (ND : 0 <= n * dust) by (apply Rmult_le_pos; lra). assert (0 <= q * G) by (apply Rmult_le_pos; lra).
    split; lra.
  Qed.
  Lemma factor_near : 2 * e2 < DX -> e1 <= DX -> HX <= fair * DX ->
    exists f, ordinary_fos b sl = Some f /\ valid f /\ Rabs (FR f - HX / DX) <= 3 * (e1 + HX / DX * e2) / DX + eta.
  Proof.
    intros LD LR LF. destruct hold_sums as (SR & H0 & EU). destruct pull_sums as (SD & P0).
    destruct (res_span b sl Mb plain_all N) as (VR & _). destruct (drv_span sl plain_all N) as (VD & _).
    assert (E1 : 0 <= e1) by (pose proof u_pos; assert (0 <= u * HX) by (apply Rmult_le_pos; lra); lra).
    destruct (quot_near _ _ HX DX e1 e2 VR VD SR SD H0 EU E1 P0 LD LR LF) as (Dp & V & E).
    rewrite fos_shape. destruct (nz_FR 0 eq_refl) as (V0 & E0). cbn [nleb FNum]. rewrite leb_FR, E0 by assumption.
    unfold Rleb. destruct (Rle_dec (FR (drv_f sl)) 0); [lra|]. exists (ndiv (res_f b sl) (drv_f sl)). auto.
  Qed.
  Lemma factor_none : DX < - e2 -> ordinary_fos b sl = None.
  Proof.
    intros L. destruct pull_sums as (SD & P0). destruct (drv_span sl plain_all N) as (VD & _). rewrite fos_shape.
    destruct (nz_FR 0 eq_refl) as (V0 & E0). cbn [nleb FNum]. rewrite leb_FR, E0 by assumption.
    unfold Rleb. destruct (Rle_dec (FR (drv_f sl)) 0); [reflexivity|lra].
  Qed.
End Sums.

(** ** The body of a slice of a circle *)
(** depth of the circle of radius [r] below its centre *)
Definition depth (cx r x : R) : R := sqrt (r * r - (x - cx) * (x - cx)).
Definition friction (m : material float) : R := tan (FR (m_friction_angle m) * (PI / 180)).
Definition soil_at (v : view float) (y : R) : option (material float) :=
  layer_at (map (fun p => (FR (fst p), snd p)) (v_mats v)) y.
Definition body_at (v : view float) (water : option (float * float)) (cx cy r b : R) (x xl xr : R) : body :=
  let h := depth cx r x in
  let yb := cy - h in
  let yt := Rmax (ground_of (v_geom v) x) yb in
  Body (slice_load v b yt yb xl xr)
       (match soil_at v yb with Some m => FR (m_cohesion m) | None => 0 end)
       (match soil_at v yb with Some m => friction m | None => 0 end)
       (match water with
        | Some (rl, xw) => pressure (FR (v_water_H v)) (FR rl) (FR xw) (FR (fst (g_bot (v_geom v)))) x yt yb
        | None => 0
        end)
       (h / r) ((cx - x) / r).
(** and the errors of its numbers when the base is off by [e] *)
Definition off_at (v : view float) (b r e : R) (k : body) : off :=
  let n := INR (List.length (v_mats v)) + INR (List.length (v_udls v)) + INR (List.length (v_lls v)) in
  Off ((2 * n + 5) * u * bW k + 3 * heaviness (map soil_of (v_mats v)) * b * e + (2 * n + 1) * dust)
      (7 * u * bu k + 40 * e + p2 (-1000)) (7 * u + 5 * (e / r)) (80 * u * bt k + p2 (-59)).

Definition plain_soil (m : material float) : Prop :=
  (valid (m_cohesion m) /\ 0 <= FR (m_cohesion m) <= p2 100) /\
  (valid (m_friction_angle m) /\ 0 <= FR (m_friction_angle m) <= 74 /\ (FR (m_friction_angle m) = 0 \/ / 1000 <= FR (m_friction_angle m))) /\ m_tan_phi m = ntan (nradians (m_friction_angle m)).

Lemma friction_pos m : plain_soil m -> 0 <= friction m <= 1000.
Proof.
  intros (_ & (V & B & _) & _). unfold friction. pose proof pi_upper as Pu. pose proof PI_RGT_0 as Pp. pose proof pi_lower as Pl.
  set (t := FR (m_friction_angle m) * (PI / 180)). assert (T : 0 <= t <= 1.2992).
  { unfold t. split; [apply Rmult_le_pos; lra|]. apply Rle_trans with (74 * (3.16 / 180)); [apply Rmult_le_compat; lra|lra]. }
  assert (C : / 1000 <= cos t) by (pose proof (cos_lower t ltac:(rewrite Rabs_right by lra; lra)); lra).
  assert (S : 0 <= sin t) by (apply sin_ge_0; lra). pose proof (SIN_bound t). unfold tan.
  assert (I : 0 < / cos t <= 1000) by (split; [apply Rinv_0_lt_compat; lra|]; replace 1000 with (/ / 1000) by lra; apply Rinv_le_contravar; lra).
  unfold Rdiv. split; [apply Rmult_le_pos; lra|]. apply Rle_trans with (1 * 1000); [apply Rmult_le_compat; lra|lra].
Qed.

Lemma tan_sign m : plain_soil m -> 0 <= FR (m_tan_phi m).
Proof.
  intros P. destruct P as (_ & (V & B & [Z|L]) & E); rewrite E.
  - destruct (m_friction_angle m) as [[]|[]| |s q e]; try (destruct V as (F & _); discriminate F).
    + match goal with |- 0 <= FR ?y => assert (Q : y = S754_zero true \/ y = S754_zero false) by (vm_compute; auto); destruct Q as [-> | ->] end; cbn [FR]; lra.
    + match goal with |- 0 <= FR ?y => assert (Q : y = S754_zero true \/ y = S754_zero false) by (vm_compute; auto); destruct Q as [-> | ->] end; cbn [FR]; lra.
    + exfalso. cbn [FR] in Z. assert (0 < IZR (Zpos q) * p2 e) by (apply Rmult_lt_0_compat; [apply (IZR_lt 0); lia|apply p2_pos]).
      destruct s; cbn [sgn] in Z; lra.
  - destruct (friction_near _ V B) as (_ & N). pose proof pi_lower as Pl. pose proof pi_upper as Pu.
    set (t := FR (m_friction_angle m) * (PI / 180)) in *.
    assert (T : / 100000 <= t <= 1.3).
    { unfold t. split; [apply Rle_trans with (/ 1000 * (3.1 / 180)); [lra|apply Rmult_le_compat; lra]|].
      apply Rle_trans with (74 * (3.16 / 180)); [apply Rmult_le_compat; lra|lra]. }
    pose proof (tan_above t ltac:(lra)) as A. apply abs_span in N.
    assert (80 * u * tan t <= / 2 * tan t) by (apply Rmult_le_compat_r; [lra|rewrite u_val; lra]).
    assert (p2 (-59) <= / 1000000).
    { apply Rle_trans with (p2 (- (20))); [apply p2_le; lia|]. rewrite p2_neg, p2_IZR by lia. apply Rinv_le_contravar; [lra|]. apply IZR_le. vm_compute. discriminate. }
    lra.
Qed.

Lemma depth_radius r h cy ty e : 0 < r -> 0 <= ty -> base_off r h cy ty e -> 16 * e <= h -> h <= r ->
  p2 (-24) * r <= h /\ p2 (-48) * r <= e.
Proof.
  intros Rp T E H8 HR. pose proof (p2_pos (-24)) as P24. pose proof (p2_pos (-48)) as P48.
  assert (T0 : 0 <= p2 (-49) * ty) by (apply Rmult_le_pos; [left; apply p2_pos|lra]).
  assert (C0 : 0 <= p2 (-53) * Rabs cy) by (apply Rmult_le_pos; [left; apply p2_pos|apply Rabs_pos]).
  assert (L : p2 (-48) <= p2 (-24)) by (apply p2_le; lia).
  assert (Lr : p2 (-48) * r <= p2 (-24) * r) by (apply Rmult_le_compat_r; lra).
  assert (R24 : 0 < p2 (-24) * r) by (apply Rmult_lt_0_compat; lra).
  destruct E as [E|(E0 & E)]; [split; lra|].
  assert (Q : p2 (-48) * (r * r / h) <= e) by lra.
  assert (R1 : r <= r * r / h).
  { apply Rmult_le_reg_r with h; [lra|]. replace (r * r / h * h) with (r * r) by (field; lra). apply Rmult_le_compat_l; lra. }
  assert (Q1 : p2 (-48) * r <= p2 (-48) * (r * r / h)) by (apply Rmult_le_compat_l; lra).
  split; [|lra]. assert (e0 : 0 < p2 (-48) * r) by (apply Rmult_lt_0_compat; lra).
  assert (Q2 : p2 (-48) * (r * r / h) <= h) by lra.
  apply Rmult_le_compat_r with (r := h) in Q2; [|lra].
  replace (p2 (-48) * (r * r / h) * h) with (p2 (-48) * (r * r)) in Q2 by (field; lra).
  replace (p2 (-48)) with (p2 (-24) * p2 (-24)) in Q2 by (rewrite <- p2_add; reflexivity).
  apply Rsqr_incr_0; unfold Rsqr; [|lra|lra]. replace (p2 (-24) * r * (p2 (-24) * r)) with (p2 (-24) * p2 (-24) * (r * r)) by ring. exact Q2.
Qed.

Section Circle.
  Variables (v : view float) (water : option (float * float)) (cx cy r x1 x2 b : float) (sl : list (slice float)) (e : slice float -> R).
  Hypothesis (SL : slices_of v cx cy r x1 x2 = Ok (Some (b, sl))) (N : (2 <= v_slices v <= 1000)%Z).
  Hypothesis (PV : plain_view v) (PS : plain_section (v_geom v)) (PM : Forall (fun p => plain_soil (snd p)) (v_mats v)).
  Hypothesis (Vcx : valid cx) (Vcy : valid cy) (Vr : valid r) (V1 : valid x1) (V2 : valid x2).
  Hypothesis (Bcx : Rabs (FR cx) <= wide) (Bcy : Rabs (FR cy) <= wide) (Br : p2 (-100) <= FR r <= wide).
  Hypothesis (B1 : Rabs (FR x1) <= / 8 * wide) (B2 : Rabs (FR x2) <= / 8 * wide) (Bb : FR b <= p2 100).
  Hypothesis (EW : water_data v = Ok water) (VH : valid (v_water_H v)) (BH : 0 <= FR (v_water_H v) <= 2).
  Hypothesis (PW : match water with Some (rl, xw) => valid rl /\ valid xw /\ Rabs (FR rl) <= fair | None => True end).
  Hypothesis (HS : heaviness (map soil_of (v_mats v)) <= p2 90).
  Definition body_of (s : slice float) : body :=
    body_at v water (FR cx) (FR cy) (FR r) (FR b) (FR (sl_x s)) (FR (nsub (sl_x s) (ndiv b (nz 2)))) (FR (nadd (sl_x s) (ndiv b (nz 2)))).
  Definition off_of (s : slice float) : off := off_at v (FR b) (FR r) (e s) (body_of s).
  (** what is asked of a slice: its base lies [16 e] below the centre, no boundary between layers is
      as near as [e], its weight and its water pressure are no astronomical numbers *)
  Definition calm (s : slice float) : Prop :=
    let h := depth (FR cx) (FR r) (FR (sl_x s)) in
    base_off (FR r) h (FR cy) (FR (snd (g_top (v_geom v)))) (e s) /\ 16 * e s <= h /\
    (forall rl m, In (rl, m) (v_mats v) -> e s < Rabs (FR rl - (FR cy - h))) /\
    bW (body_of s) + oW (off_of s) <= p2 100 /\ bu (body_of s) + ou (off_of s) <= p2 100.
  Hypothesis (FC : Forall calm sl).

  Lemma slice_stands : mild b /\ Forall (fun s => plain_slice s /\ sound (FR b) (body_of s) /\ stands s (body_of s) (off_of s)) sl.
  Proof.
    destruct (whole_near v cx cy r x1 x2 b sl SL N PV PS Vcx Vcy Vr V1 V2 Bcx Bcy Br B1 B2) as (water' & m0 & EW' & EM & (Vb & Bb') & F).
    rewrite EW in EW'. injection EW' as <-. split; [split; [exact Vb|lra]|].
    rewrite Forall_forall in *. intros s I. destruct (F s I) as (Vx & Bx & IN & ES). destruct (FC s I) as (E & H16 & NB & QW & QU).
    clear F FC I. set (mat := match base_material _ _ with Some m => m | None => m0 end) in ES.
    set (x := FR (sl_x s)) in *. set (h := depth (FR cx) (FR r) x) in *. set (ee := e s) in *.
    assert (Rp : 0 < FR r) by (pose proof (p2_pos (-100)); lra).
    assert (HR : h <= FR r) by (apply half_le_sqrt; lra).
    assert (TY : 0 <= FR (snd (g_top (v_geom v)))) by (destruct PS as (_ & _ & T & _); lra).
    destruct (depth_radius _ _ _ _ _ Rp TY E H16 HR) as (D1 & D2).
    assert (E0 : 0 < ee) by (apply Rlt_le_trans with (2 := D2); apply Rmult_lt_0_compat; [apply p2_pos|lra]).
    assert (Ir : 0 < / FR r) by (apply Rinv_0_lt_compat; lra).
    (* the base *)
    pose proof (slice_base v water cx cy r b (sl_x s) mat PS Vcx Vcy Vr Vx Bcx Bcy Br Bx Bb' IN) as (Vyb & _ & Nyb). rewrite <- ES in Vyb, Nyb.
    specialize (Nyb ee E). destruct Nyb as (Nyb & _).
    (* sine and cosine *)
    pose proof (slice_angle v water cx cy r b (sl_x s) mat PS Vcx Vcy Vr Vx Bcx Bcy Br Bx Bb' IN ee E ltac:(change (8 * ee <= h); lra)) as ((Vc & C1 & Nc) & (Vs & S1 & Ns)).
    rewrite <- ES in Vc, C1, Nc, Vs, S1, Ns. fold x in Nc, Ns. change (sqrt (FR r * FR r - (x - FR cx) * (x - FR cx))) with h in Nc.
    set (a := 7 * u + 5 * (ee / FR r)) in *.
    assert (A2 : 2 * a <= h / FR r).
    { unfold a. apply Rmult_le_reg_r with (FR r); [exact Rp|]. replace (h / FR r * FR r) with h by (field; lra).
      replace (2 * (7 * u + 5 * (ee / FR r)) * FR r) with (14 * (u * FR r) + 10 * ee) by (field; lra).
      assert (U48 : 32 * u = p2 (-48)) by (unfold u; replace 32 with (p2 5) by (rewrite p2_IZR by lia; reflexivity); rewrite <- p2_add; reflexivity).
      rewrite <- U48 in D2. fold ee in D2. lra. }
    assert (A0 : 0 <= a) by (pose proof (Rabs_pos (FR (sl_cos s) - h / FR r)); lra).
    assert (K24 : p2 (-24) <= h / FR r <= 1).
    { split; apply Rmult_le_reg_r with (FR r); try exact Rp; replace (h / FR r * FR r) with h by (field; lra); lra. }
    assert (Sx : Rabs ((FR cx - x) / FR r) <= 1).
    { unfold Rdiv. rewrite Rabs_mult, (Rabs_right (/ FR r)) by lra. apply Rmult_le_reg_r with (FR r); [exact Rp|].
      rewrite Rmult_assoc, Rinv_l, Rmult_1_r, Rmult_1_l by lra. apply Rsqr_incr_0; [|apply Rabs_pos|lra]. rewrite <- Rsqr_abs.
      destruct (Rle_dec (Rsqr (FR cx - x)) (Rsqr (FR r))) as [|Nn]; [assumption|]. exfalso. apply Rnot_le_lt in Nn. unfold Rsqr in Nn.
      assert (h = 0); [|lra]. unfold h, depth. apply sqrt_neg_0. lra. }
    (* the soil *)
    assert (SM : exists m, soil_at v (FR cy - h) = Some m /\ In m (map snd (v_mats v)) /\ sl_c s = m_cohesion m /\ sl_tan s = m_tan_phi m).
    { assert (FV : Forall (fun p => valid (fst p)) (v_mats v)) by (destruct PV as (_ & FL & _); apply Forall_impl with (2 := FL); intros p P; apply P).
      assert (SB : slice_bottom cx cy r (sl_x s) = sl_yb s) by (rewrite ES at 2; reflexivity).
      assert (LA : exists m, layer_at (map (fun p => (FR (fst p), snd p)) (v_mats v)) (FR (sl_yb s)) = Some m /\ In m (map snd (v_mats v))).
      { clear -EM. induction (v_mats v) as [|(rl, m) l IH]; [now elim EM|]. destruct l as [|p l]; [exists m; split; [reflexivity|now left]|].
        destruct (IH ltac:(discriminate)) as (m' & E & I). cbn [map fst snd layer_at] in *.
        destruct (Rlt_dec (FR rl) (FR (sl_yb s))); [exists m; split; [reflexivity|now left]|exists m'; split; [exact E|now right]]. }
      destruct LA as (m & LA & IM). exists m. assert (MM : mat = m).
      { unfold mat. rewrite SB, (base_material_is _ _ FV Vyb), LA. reflexivity. }
      split; [|split; [exact IM|rewrite ES, MM; split; reflexivity]]. unfold soil_at. rewrite <- LA. symmetry. apply layer_same with (e := ee); [exact Nyb|].
      intros rl m' I. apply in_map_iff in I as ((rl', m'') & E1 & I). injection E1 as <- <-. exact (NB rl' m'' I). }
    destruct SM as (m & SM & IM & EC & ET). apply in_map_iff in IM as ((rl0, m1) & E1 & IM). cbn [snd] in E1. subst m1.
    pose proof (PM (rl0, m) IM) as Pm. cbn [snd] in Pm. pose proof (friction_pos m Pm) as FP. pose proof (tan_sign m Pm) as T0. rewrite <- ET in T0. destruct Pm as ((Vco & Bco) & (Vph & Bph & Dph) & Etan).
    destruct (friction_near _ Vph Bph) as (Vt & Nt). rewrite <- Etan, <- ET in Vt, Nt. change (tan _) with (friction m) in Nt.
    (* the weight *)
    set (k := body_of s) in *.
    assert (KW : bW k = slice_load v (FR b) (Rmax (ground_of (v_geom v) x) (FR cy - h)) (FR cy - h) (FR (nsub (sl_x s) (ndiv b (nz 2)))) (FR (nadd (sl_x s) (ndiv b (nz 2))))) by reflexivity.
    assert (W0 : 0 <= bW k /\ total (fun q => strip_load (FR (nsub (sl_x s) (ndiv b (nz 2)))) (FR (nadd (sl_x s) (ndiv b (nz 2)))) (load_of q)) (v_udls v) +
                total (fun q => line_load (FR (nsub (sl_x s) (ndiv b (nz 2)))) (FR (nadd (sl_x s) (ndiv b (nz 2)))) (line_of q)) (v_lls v) <= bW k).
    { rewrite KW. unfold slice_load. destruct PV as (_ & FL & FU & FP' & _).
      assert (FH : Forall (fun l : R * R => 0 <= snd l) (map soil_of (v_mats v))).
      { clear -FL. induction FL as [|p l P F IH]; constructor; [|exact IH]. apply P. }
      pose proof (column_size (map soil_of (v_mats v)) (Rmax (ground_of (v_geom v) x) (FR cy - h)) (FR cy - h) FH (FR (g_ext_h (v_geom v)))) as (C & _).
      assert (CB : 0 <= column (FR (g_ext_h (v_geom v))) (map soil_of (v_mats v)) (Rmax (ground_of (v_geom v) x) (FR cy - h)) (FR cy - h) * FR b) by (apply Rmult_le_pos; lra).
      assert (U0 : 0 <= total (fun q => strip_load (FR (nsub (sl_x s) (ndiv b (nz 2)))) (FR (nadd (sl_x s) (ndiv b (nz 2)))) (load_of q)) (v_udls v)).
      { apply total_nonneg. apply Forall_impl with (2 := FU). intros q Q. now apply load_nonneg. }
      assert (L0 : 0 <= total (fun q => line_load (FR (nsub (sl_x s) (ndiv b (nz 2)))) (FR (nadd (sl_x s) (ndiv b (nz 2)))) (line_of q)) (v_lls v)).
      { apply total_nonneg. apply Forall_impl with (2 := FP'). intros q Q. now apply line_nonneg. }
      split; lra. }
    destruct W0 as (W0 & WL).
    assert (OW : Rabs (FR (sl_W s) - bW k) <= oW (off_of s) /\ valid (sl_W s)).
    { assert (OW0 : 0 <= oW (off_of s)).
      { unfold off_of, off_at. cbn [oW]. fold k. set (n := INR _ + INR _ + INR _).
        assert (n0 : 0 <= n) by (unfold n; pose proof (pos_INR (List.length (v_mats v))); pose proof (pos_INR (List.length (v_udls v))); pose proof (pos_INR (List.length (v_lls v))); lra).
        assert (H0 : 0 <= heaviness (map soil_of (v_mats v))).
        { apply total_nonneg. destruct PV as (_ & FL & _). clear -FL. induction FL as [|p l P F IH]; constructor; [|exact IH]. apply P. }
        pose proof u_pos. pose proof dust_pos. fold ee.
        assert (0 <= (2 * n + 5) * u * bW k) by (apply Rmult_le_pos; [apply Rmult_le_pos; lra|exact W0]).
        assert (0 <= 3 * heaviness (map soil_of (v_mats v)) * FR b * ee) by (apply Rmult_le_pos; [apply Rmult_le_pos; lra|lra]).
        assert (0 <= (2 * n + 1) * dust) by (apply Rmult_le_pos; lra). lra. }
      assert (P800 : p2 100 <= p2 800) by (apply p2_le; lia).
      pose proof (slice_weight v water cx cy r b (sl_x s) mat PV PS Vcx Vcy Vr Vx Vb Bcx Bcy Br Bx Bb' IN ee E HS ltac:(lra)) as (VW & NW).
      rewrite <- ES in VW, NW. split; [exact NW|exact VW]. }
    destruct OW as (NW & VW).
    assert (AW : 0 <= FR (sl_W s)) by (apply above_FR; rewrite ES; apply weight_above; [exact PV|exact Vb|lra]).
    assert (AU : 0 <= FR (sl_u s)) by (apply above_FR; rewrite ES; apply water_above; [exact VH|lra]).
    (* the water *)
    assert (OU : valid (sl_u s) /\ 0 <= bu k /\ Rabs (FR (sl_u s) - bu k) <= ou (off_of s)).
    { unfold off_of, off_at. cbn [ou]. fold k ee. pose proof u_pos. pose proof (p2_pos (-1000)).
      assert (KU : bu k = match water with
        | Some (rl, xw) => pressure (FR (v_water_H v)) (FR rl) (FR xw) (FR (fst (g_bot (v_geom v)))) x (Rmax (ground_of (v_geom v) x) (FR cy - h)) (FR cy - h)
        | None => 0 end) by reflexivity.
      rewrite KU. clear KU QU. destruct water as [(rl, xw)|].
      - destruct PW as (Vrl & Vxw & Brl).
        pose proof (slice_water v (Some (rl, xw)) cx cy r b (sl_x s) mat PS Vcx Vcy Vr Vx Bcx Bcy Br Bx Bb' IN ee rl xw E eq_refl Vrl Vxw Brl VH BH) as (VU & NU).
        rewrite <- ES in VU, NU. split; [exact VU|]. split; [apply pressure_pos; lra|exact NU].
      - rewrite ES. cbn [make_slice sl_u]. destruct (nz_FR 0 eq_refl) as (V0 & Z0). split; [exact V0|]. rewrite Z0.
        split; [lra|]. rewrite Rminus_eq_0, Rabs_R0. lra. }
    destruct OU as (VU & U0 & NU). pose proof (abs_span _ _ NW) as SW. pose proof (abs_span _ _ NU) as SU.
    assert (KC : bc k = FR (m_cohesion m)) by (unfold k, body_of, body_at; cbn [bc]; fold x h; rewrite SM; reflexivity).
    assert (KT : bt k = friction m) by (unfold k, body_of, body_at; cbn [bt]; fold x h; rewrite SM; reflexivity).
    assert (P59 : p2 (-59) <= 1) by (rewrite <- p2_0; apply p2_le; lia).
    assert (U80 : 80 * u <= 1) by (rewrite u_val; lra). pose proof u_pos as Up.
    assert (T80 : 80 * u * friction m <= 1 * friction m) by (apply Rmult_le_compat_r; lra).
    split; [|split].
    - split; [split; [exact VW|lra]|]. split; [rewrite EC; split; [exact Vco|exact Bco]|]. split.
      { split; [exact Vt|]. split; [exact T0|]. apply abs_span in Nt. assert (2002 <= p2 100) by (apply Rle_trans with (p2 11); [rewrite p2_IZR by lia; apply IZR_le; vm_compute; discriminate|apply p2_le; lia]). lra. }
      split; [split; [exact VU|lra]|]. split; [split; [exact Vc|]|split; [exact Vs|exact S1]]. split; [|exact C1].
      apply abs_span in Nc. assert (p2 (-100) <= / 2 * p2 (-24)) by (rewrite <- p2_1, <- p2_neg, <- p2_add; apply p2_le; lia). lra.
    - unfold sound. rewrite KC, KT. change (bco k) with (h / FR r). change (bsi k) with ((FR cx - x) / FR r). pose proof (p2_pos (-24)).
      repeat split; try lra; exact Sx.
    - unfold stands. rewrite KC, EC. change (bco k) with (h / FR r). change (bsi k) with ((FR cx - x) / FR r).
      change (oa (off_of s)) with a. change (ot (off_of s)) with (80 * u * bt k + p2 (-59)). rewrite KT.
      repeat split; try assumption.
  Qed.
End Circle.
