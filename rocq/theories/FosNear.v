(** * FosNear: the computed ordinary factor of safety against the exact one
    (pyslope.py:1490-1504). *)
From Coq Require Import ZArith Reals Lra Lia Bool List SpecFloat.
From Verif Require Import Num FloatNum RealNum Py Objects Slope Planes Analysis RoundTheory NearFacts SumNear WeightNear.
Import ListNotations.
Local Open Scope R_scope.

(** ** The exact sums *)
Definition base_len (b : R) (s : slice float) : R := b / FR (sl_cos s).
(** resistance of the base of a slice *)
Definition hold (b : R) (s : slice float) : R :=
  FR (sl_c s) * base_len b s +
  Rmax 0 (FR (sl_W s) * FR (sl_cos s) - FR (sl_u s) * base_len b s) * FR (sl_tan s).
(** the same with nothing subtracted *)
Definition hold_gross (b : R) (s : slice float) : R :=
  FR (sl_c s) * base_len b s +
  (FR (sl_W s) * FR (sl_cos s) + FR (sl_u s) * base_len b s) * FR (sl_tan s).
(** pull along the base, and its size *)
Definition pull (s : slice float) : R := FR (sl_W s) * FR (sl_sin s).
Definition pull_gross (s : slice float) : R := FR (sl_W s) * Rabs (FR (sl_sin s)).

Definition mild (x : float) : Prop := valid x /\ 0 <= FR x <= p2 100.
Definition plain_slice (s : slice float) : Prop :=
  mild (sl_W s) /\ mild (sl_c s) /\ mild (sl_tan s) /\ mild (sl_u s) /\
  (valid (sl_cos s) /\ p2 (-100) <= FR (sl_cos s) <= 1) /\ (valid (sl_sin s) /\ Rabs (FR (sl_sin s)) <= 1).

Lemma big_100 : 1 <= p2 100.
Proof. rewrite <- p2_0. apply p2_le. lia. Qed.
Lemma base_bounds b s : mild b -> plain_slice s -> 0 <= base_len (FR b) s <= p2 200.
Proof.
  intros (Vb & Bb) (_ & _ & _ & _ & (Vc & Cc) & _). unfold base_len. pose proof (p2_pos (-100)) as P.
  assert (I : 0 < / FR (sl_cos s) <= p2 100).
  { split; [apply Rinv_0_lt_compat; lra|]. change 100%Z with (- -100)%Z. rewrite p2_neg. apply Rinv_le_contravar; lra. }
  unfold Rdiv. split; [apply Rmult_le_pos; lra|]. change 200%Z with (100 + 100)%Z. rewrite p2_add.
  apply Rmult_le_compat; lra.
Qed.
Lemma base_about b s : mild b -> plain_slice s ->
  about (ndiv b (sl_cos s)) (base_len (FR b) s) (base_len (FR b) s) 1 eta.
Proof.
  intros Mb Ps. pose proof (base_bounds b s Mb Ps) as B. destruct Mb as (Vb & Bb), Ps as (_ & _ & _ & _ & (Vc & Cc) & _).
  pose proof (p2_pos (-100)) as P. unfold base_len in *.
  destruct (div_near b (sl_cos s) Vb Vc) as (V & N); [lra| |].
  { rewrite Rabs_right by lra. apply Rle_lt_trans with (1 := proj2 B). apply p2_lt. lia. }
  split; [exact V|]. rewrite Rabs_right by lra. split; [lra|]. apply Rle_trans with (1 := N).
  rewrite Rabs_right by lra. pose proof eta_pos. pose proof u_pos. assert (0 <= u * (FR b / FR (sl_cos s))) by (apply Rmult_le_pos; lra).
  apply Rmax_lub; lra.
Qed.
Lemma mild_mul x v g k d w : about x v g k d -> 0 <= k <= 100 -> 0 <= d <= 1 -> mild w -> g <= p2 400 ->
  about (nmul x w) (v * FR w) (g * FR w) (k + 2) (2 * d * p2 100 + eta).
Proof.
  intros A K D (Vw & Bw) G.
  assert (G0 : 0 <= g) by (destruct A as (_ & Q & _); pose proof (Rabs_pos v); lra).
  pose proof (mul_about x w v g k d A Vw) as M. rewrite (Rabs_right (FR w)) in M by lra.
  assert (V : (g + d) * FR w <= vast).
  { apply Rle_trans with (p2 401 * p2 100).
    - apply Rmult_le_compat; try lra. change 401%Z with (1 + 400)%Z. rewrite p2_add, p2_1.
      assert (1 <= p2 400) by (rewrite <- p2_0; apply p2_le; lia). lra.
    - rewrite <- p2_add. apply p2_le. lia. }
  specialize (M ltac:(unfold many; lra) ltac:(lra) V). apply about_weaken with (1 := M); [lra|].
  assert (2 * d * FR w <= 2 * d * p2 100) by (apply Rmult_le_compat_l; lra). lra.
Qed.
Lemma mild_mul_l x v g k d w : about x v g k d -> 0 <= k <= 100 -> 0 <= d <= 1 -> mild w -> g <= p2 400 ->
  about (nmul w x) (FR w * v) (FR w * g) (k + 2) (2 * d * p2 100 + eta).
Proof.
  intros A K D W G. change (nmul w x) with (SFmul prec emax w x). rewrite mul_comm, (Rmult_comm (FR w) v), (Rmult_comm (FR w) g).
  apply (mild_mul x v g k d w); auto.
Qed.
Lemma prod_100 a b x y : 0 <= x <= p2 a -> 0 <= y <= p2 b -> 0 <= x * y <= p2 (a + b).
Proof. intros X Y. rewrite p2_add. split; [apply Rmult_le_pos; lra|]. apply Rmult_le_compat; lra. Qed.
Lemma weaker a b x : 0 <= x <= p2 a -> (a <= b)%Z -> 0 <= x <= p2 b.
Proof. intros X L. pose proof (p2_le a b L). lra. Qed.
Lemma sum_500 a x y : 0 <= x <= p2 a -> 0 <= y <= p2 a -> 0 <= x + y <= p2 (1 + a).
Proof. intros X Y. rewrite p2_add, p2_1. lra. Qed.

Lemma gross_bounds b s : mild b -> plain_slice s -> 0 <= hold_gross (FR b) s <= p2 402.
Proof.
  intros Mb Ps. pose proof (base_bounds b s Mb Ps) as B. pose proof Ps as ((_ & W) & (_ & C) & (_ & T) & (_ & U) & (_ & Co) & _).
  pose proof (p2_pos (-100)). unfold hold_gross.
  assert (Co' : 0 <= FR (sl_cos s) <= p2 0) by (rewrite p2_0; lra).
  change 402%Z with (1 + (1 + (300 + 100)))%Z. apply sum_500.
  - apply weaker with (100 + 200)%Z; [|lia]. apply prod_100; assumption.
  - apply weaker with ((1 + 300) + 100)%Z; [|lia]. apply prod_100; [|assumption]. apply sum_500.
    + apply weaker with (100 + 0)%Z; [|lia]. apply prod_100; assumption.
    + apply weaker with (100 + 200)%Z; [|lia]. apply prod_100; assumption.
Qed.
Lemma eta_200 : 1000 * eta * p2 100 * p2 100 + 1000 * eta * p2 100 + 1000 * eta <= dust.
Proof.
  assert (A : 1000 <= p2 10) by (rewrite p2_IZR by lia; apply IZR_le; vm_compute; discriminate).
  pose proof eta_pos as E. pose proof big_100 as B. set (m := p2 100) in *.
  assert (E1 : eta * 1 <= eta * m) by (apply Rmult_le_compat_l; lra).
  assert (E2 : eta * m * 1 <= eta * m * m) by (apply Rmult_le_compat_l; lra).
  assert (E3 : 1000 * (eta * m * m) <= p2 10 * (eta * m * m)) by (apply Rmult_le_compat_r; lra).
  apply Rle_trans with (4 * (p2 10 * (eta * m * m))); [lra|].
  replace 4 with (p2 2) by (rewrite p2_IZR by lia; reflexivity). unfold m, eta, dust. rewrite <- !p2_add. apply p2_le. lia.
Qed.

Definition hold_f (b : float) (s : slice float) : float :=
  let l := ndiv b (sl_cos s) in
  nadd (nmul (sl_c s) l) (nmul (pymax (nz 0) (nsub (nmul (sl_W s) (sl_cos s)) (nmul (sl_u s) l))) (sl_tan s)).
Lemma hold_about b s : mild b -> plain_slice s ->
  about (hold_f b s) (hold (FR b) s) (hold_gross (FR b) s) 9 dust.
Proof.
  intros Mb Ps. pose proof (base_bounds b s Mb Ps) as B. pose proof (base_about b s Mb Ps) as A.
  pose proof Ps as (MW & MC & MT & MU & (Vc & Co) & _).
  pose proof eta_200 as E200. pose proof dust_small as DS. pose proof eta_pos as EP. pose proof (p2_pos (-100)) as PP. pose proof vast_big as VB.
  pose proof big_100 as B1. pose proof u_pos as U0.
  assert (U1 : u <= / 1000) by (rewrite u_val; lra).
  assert (L400 : base_len (FR b) s <= p2 400) by (apply Rle_trans with (p2 200); [lra|apply p2_le; lia]).
  set (m := p2 100) in *. assert (EM : 0 <= eta * m) by (apply Rmult_le_pos; lra).
  assert (EMM : 0 <= eta * m * m) by (apply Rmult_le_pos; lra).
  pose proof (mild_mul_l _ _ _ _ _ (sl_c s) A ltac:(lra) ltac:(lra) MC L400) as AC. fold m in AC.
  pose proof (mild_mul_l _ _ _ _ _ (sl_u s) A ltac:(lra) ltac:(lra) MU L400) as AU. fold m in AU.
  pose proof (about_exact _ (proj1 MW)) as AW0. rewrite (Rabs_right (FR (sl_W s))) in AW0 by (destruct MW; lra).
  assert (Mc : mild (sl_cos s)) by (split; [exact Vc|fold m; lra]).
  assert (W400 : FR (sl_W s) <= p2 400) by (apply Rle_trans with (p2 100); [apply MW|apply p2_le; lia]).
  pose proof (mild_mul _ _ _ _ _ (sl_cos s) AW0 ltac:(lra) ltac:(lra) Mc W400) as AW1. fold m in AW1.
  pose proof (about_weaken _ _ _ _ _ 2 eta AW1 ltac:(lra) ltac:(lra)) as AW. clear AW1.
  set (Wc := FR (sl_W s) * FR (sl_cos s)) in *. set (l := base_len (FR b) s) in *.
  assert (WcB : 0 <= Wc <= p2 100).
  { replace 100%Z with (100 + 0)%Z by lia. apply prod_100; [destruct MW; assumption|rewrite p2_0; lra]. }
  assert (ULB : 0 <= FR (sl_u s) * l <= p2 300).
  { change 300%Z with (100 + 200)%Z. apply prod_100; [apply MU|exact B]. }
  assert (CLB : 0 <= FR (sl_c s) * l <= p2 300).
  { change 300%Z with (100 + 200)%Z. apply prod_100; [apply MC|exact B]. }
  assert (V300 : p2 300 <= vast) by (apply p2_le; lia). assert (V100 : p2 100 <= p2 300) by (apply p2_le; lia).
  assert (G301 : Wc + FR (sl_u s) * l <= p2 400).
  { apply Rle_trans with (p2 (1 + 300)); [|apply p2_le; lia]. rewrite p2_add, p2_1. lra. }
  pose proof (sub_about _ _ _ _ _ _ _ _ _ _ AW AU ltac:(unfold many; lra) ltac:(unfold many; lra) ltac:(lra) ltac:(lra) ltac:(lra) ltac:(lra)) as AS.
  rewrite (Rmax_right 2 (1 + 2)) in AS by lra.
  assert (AS' : about (nsub (nmul (sl_W s) (sl_cos s)) (nmul (sl_u s) (ndiv b (sl_cos s)))) (Wc - FR (sl_u s) * l)
                  (Wc + FR (sl_u s) * l) 5 (4 * eta * m + 4 * eta)).
  { apply about_weaken with (1 := AS); [lra|].
    assert ((1 + u) * (eta + (2 * eta * m + eta)) <= 2 * (eta + (2 * eta * m + eta))) by (apply Rmult_le_compat_r; lra). lra. }
  apply max0_about in AS'.
  pose proof (mild_mul _ _ _ _ _ (sl_tan s) AS' ltac:(lra) ltac:(lra) MT G301) as AT. fold m in AT.
  assert (GT : (Wc + FR (sl_u s) * l) * FR (sl_tan s) <= vast).
  { apply Rle_trans with (p2 (400 + 100)); [|apply p2_le; lia]. apply prod_100; [lra|apply MT]. }
  pose proof (add_about _ _ _ _ _ _ _ _ _ _ AC AT ltac:(unfold many; lra) ltac:(unfold many; lra) ltac:(lra) ltac:(lra) ltac:(lra) GT) as AR.
  rewrite (Rmax_right (1 + 2) (5 + 2)) in AR by lra.
  unfold hold_f, hold, hold_gross. fold l Wc. apply about_weaken with (1 := AR); [lra|].
  set (d1 := 2 * eta * m + eta) in *. set (d2 := 2 * (4 * eta * m + 4 * eta) * m + eta) in *.
  assert (D1 : 0 <= d1 + d2) by (unfold d1, d2; lra).
  assert ((1 + u) * (d1 + d2) <= 2 * (d1 + d2)) by (apply Rmult_le_compat_r; lra).
  unfold d1, d2 in *. lra.
Qed.
Lemma pull_about s : plain_slice s -> about (nmul (sl_W s) (sl_sin s)) (pull s) (pull_gross s) 2 dust.
Proof.
  intros Ps. pose proof Ps as ((VW & BW) & _ & _ & _ & _ & (Vs & Bs)).
  pose proof (about_exact _ VW) as A. rewrite (Rabs_right (FR (sl_W s))) in A by lra.
  assert (G : (FR (sl_W s) + 0) * Rabs (FR (sl_sin s)) <= vast).
  { apply Rle_trans with (p2 (100 + 0)); [|apply p2_le; lia]. rewrite Rplus_0_r. apply prod_100; [assumption|].
    rewrite p2_0. pose proof (Rabs_pos (FR (sl_sin s))). lra. }
  pose proof (mul_about _ (sl_sin s) _ _ 0 0 A Vs ltac:(unfold many; lra) ltac:(lra) G) as M.
  apply about_weaken with (1 := M); [lra|]. pose proof eta_200. pose proof eta_pos. pose proof big_100 as B.
  assert (0 <= eta * p2 100) by (apply Rmult_le_pos; lra). assert (0 <= eta * p2 100 * p2 100) by (apply Rmult_le_pos; lra). lra.
Qed.
Lemma fold_map {A B} (f : A -> B) (op : B -> B -> B) l : forall w, fold_left op (map f l) w = fold_left (fun w a => op w (f a)) l w.
Proof. induction l as [|a l IH]; intros w; [reflexivity|]. cbn. apply IH. Qed.
Lemma total_bound {A} (f : A -> R) M l : Forall (fun a => f a <= M) l -> total f l <= INR (List.length l) * M.
Proof.
  induction 1 as [|a l P F IH]; [cbn; lra|]. rewrite count_cons. cbn [total fold_right]. fold (total f l). lra.
Qed.

(** the quotient of two computed sums *)
Lemma quot_near (r d : float) (HR HD eR eD : R) : valid r -> valid d -> HR - eR <= FR r <= HR + eR -> HD - eD <= FR d <= HD + eD ->
  0 <= HR -> 9 * u * HR <= eR -> 0 <= eR -> 0 <= eD -> 2 * eD < HD -> eR <= HD -> HR <= fair * HD ->
  0 < FR d /\ valid (ndiv r d) /\ Rabs (FR (ndiv r d) - HR / HD) <= 3 * (eR + HR / HD * eD) / HD + eta.
Proof.
  intros VR VD SR SD H0 EU E1 P0 LD LR LF. set (res_f := r) in *. set (drv_f := d) in *. split; [lra|].
  set (R' := FR res_f) in *. set (D' := FR drv_f) in *.
  pose proof vast_big as VB. pose proof fair_vast as FV. pose proof fair_big as FB. pose proof top_vast as TV.
  set (F := HR / HD). assert (FE : HR = F * HD) by (unfold F; field; lra).
  assert (F0 : 0 <= F) by (unfold F; apply Rmult_le_pos; [lra|left; apply Rinv_0_lt_compat; lra]).
  assert (FF : F <= fair) by (apply Rmult_le_reg_r with HD; lra).
  set (q := (eR + F * eD) / HD). assert (QE : eR + F * eD = q * HD) by (unfold q; field; lra).
  assert (F1 : 0 <= F * eD) by (apply Rmult_le_pos; lra).
  assert (Q0 : 0 <= q) by (apply Rmult_le_reg_r with HD; lra).
  assert (Q1 : q <= 1 + fair).
  { apply Rmult_le_reg_r with HD; [lra|]. rewrite <- QE.
    assert (F * eD <= fair * HD) by (apply Rmult_le_compat; lra). lra. }
  assert (X : Rabs (R' / D' - F) <= 2 * q).
  { replace (R' / D' - F) with ((R' - HR - F * (D' - HD)) * / D') by (rewrite FE; field; lra).
    assert (I : 0 < / D' <= 2 / HD).
    { split; [apply Rinv_0_lt_compat; lra|]. replace (2 / HD) with (/ (HD / 2)) by (field; lra). apply Rinv_le_contravar; lra. }
    rewrite Rabs_mult, (Rabs_right (/ D')) by lra. replace (2 * q) with (q * HD * (2 / HD)) by (field; lra).
    apply Rmult_le_compat; try lra; [apply Rabs_pos|]. rewrite <- QE.
    assert (- (F * eD) <= F * (D' - HD) <= F * eD).
    { split; [replace (- (F * eD)) with (F * - eD) by ring|]; apply Rmult_le_compat_l; lra. }
    apply Rabs_le. lra. }
  pose proof (abs_span _ _ X) as XS.
  assert (FF1 : fair * 1 <= fair * fair) by (apply Rmult_le_compat_l; lra).
  destruct (div_near res_f drv_f VR VD) as (V & Nr).
  { fold D'. lra. }
  { fold R' D'. apply Rabs_def1; lra. }
  split; [exact V|]. fold R' D' in Nr. cbn [ndiv FNum]. set (q0 := FR (SFdiv prec emax res_f drv_f)) in *.
  replace (q0 - F) with ((R' / D' - F) + (q0 - R' / D')) by ring. apply Rle_trans with (1 := Rabs_triang _ _).
  replace (3 * (eR + F * eD) / HD) with (3 * q) by (rewrite QE; field; lra).
  assert (Y : Rabs (R' / D') <= F + 2 * q) by (apply Rabs_le; lra).
  assert (UF : 9 * (u * F) <= q).
  { apply Rmult_le_reg_r with HD; [lra|]. rewrite <- QE. replace (9 * (u * F) * HD) with (9 * u * (F * HD)) by ring. rewrite <- FE. lra. }
  assert (Z : Rabs (q0 - R' / D') <= / 2 * q + eta).
  { apply Rle_trans with (1 := Nr). pose proof eta_pos. apply Rmax_lub; [|lra].
    apply Rle_trans with (u * (F + 2 * q)); [apply Rmult_le_compat_l; [left; apply u_pos|lra]|].
    assert (u * q <= / 10 * q) by (apply Rmult_le_compat_r; [lra|]; rewrite u_val; lra). lra. }
  lra.
Qed.

(** the greatest errors of the two sums over [n] slices *)
Definition hold_error (b : R) (sl : list (slice float)) : R :=
  (2 * INR (List.length sl) + 9) * u * total (hold_gross b) sl + 2 * INR (List.length sl) * dust.
Definition pull_error (sl : list (slice float)) : R :=
  (2 * INR (List.length sl) + 9) * u * total pull_gross sl + 2 * INR (List.length sl) * dust.

Section Fos.
  Context (b : float) (sl : list (slice float)) (Mb : mild b) (Ps : Forall plain_slice sl)
          (N : INR (List.length sl) <= 1000000000000).
  Let HR := total (hold (FR b)) sl.
  Let HD := total pull sl.
  Definition res_f := nsum (map (hold_f b) sl).
  Definition drv_f := nsum (map (fun s => nmul (sl_W s) (sl_sin s)) sl).
  Lemma res_about : about res_f HR (total (hold_gross (FR b)) sl) (9 + 2 * INR (List.length sl)) (2 * INR (List.length sl) * dust).
  Proof.
    unfold res_f, nsum. rewrite fold_map. pose proof dust_pos. pose proof dust_small.
    apply (sum_list_about (hold_f b) (hold (FR b)) (hold_gross (FR b)) 9 dust); try lra.
    - rewrite Forall_forall in *. intros s I. apply hold_about; auto.
    - apply Rle_trans with (INR (List.length sl) * p2 402).
      + apply total_bound. rewrite Forall_forall in *. intros s I. apply gross_bounds; auto.
      + apply Rle_trans with (p2 40 * p2 402).
        * apply Rmult_le_compat_r; [left; apply p2_pos|]. apply Rle_trans with (1 := N). rewrite p2_IZR by lia. apply IZR_le. vm_compute. discriminate.
        * rewrite <- p2_add. apply p2_le. lia.
  Qed.
  Lemma drv_about : about drv_f HD (total pull_gross sl) (2 + 2 * INR (List.length sl)) (2 * INR (List.length sl) * dust).
  Proof.
    unfold drv_f, nsum. rewrite fold_map. pose proof dust_pos. pose proof dust_small.
    apply (sum_list_about (fun s => nmul (sl_W s) (sl_sin s)) pull pull_gross 2 dust); try lra.
    - rewrite Forall_forall in *. intros s I. apply pull_about; auto.
    - apply Rle_trans with (INR (List.length sl) * p2 100).
      + apply total_bound. rewrite Forall_forall in *. intros s I. destruct (Ps s I) as ((_ & BW) & _ & _ & _ & _ & (_ & Bs)).
        unfold pull_gross. change 100%Z with (100 + 0)%Z. apply prod_100; [assumption|]. rewrite p2_0.
        pose proof (Rabs_pos (FR (sl_sin s))). lra.
      + apply Rle_trans with (p2 40 * p2 100).
        * apply Rmult_le_compat_r; [left; apply p2_pos|]. apply Rle_trans with (1 := N). rewrite p2_IZR by lia. apply IZR_le. vm_compute. discriminate.
        * rewrite <- p2_add. apply p2_le. lia.
  Qed.
  Lemma pull_gross_nonneg : 0 <= total pull_gross sl.
  Proof.
    apply total_nonneg. rewrite Forall_forall in *. intros s I. destruct (Ps s I) as ((_ & BW) & _). unfold pull_gross.
    apply Rmult_le_pos; [lra|apply Rabs_pos].
  Qed.
  Lemma fos_shape : ordinary_fos b sl = if nleb drv_f (nz 0) then None else Some (ndiv res_f drv_f).
  Proof. reflexivity. Qed.
  Lemma drv_span : valid drv_f /\ HD - pull_error sl <= FR drv_f <= HD + pull_error sl.
  Proof.
    pose proof drv_about as (V & _ & E). split; [exact V|]. apply abs_span in E. unfold pull_error.
    pose proof pull_gross_nonneg. pose proof u_pos. assert (0 <= u * total pull_gross sl) by (apply Rmult_le_pos; lra). lra.
  Qed.
  Lemma res_span : valid res_f /\ HR - hold_error (FR b) sl <= FR res_f <= HR + hold_error (FR b) sl.
  Proof.
    pose proof res_about as (V & _ & E). split; [exact V|]. apply abs_span in E. unfold hold_error. lra.
  Qed.
  Lemma fos_none : HD < - pull_error sl -> ordinary_fos b sl = None.
  Proof.
    intros L. destruct drv_span as (V & S). rewrite fos_shape. destruct (nz_FR 0 eq_refl) as (V0 & E0).
    cbn [nleb FNum]. rewrite leb_FR, E0 by assumption. unfold Rleb. destruct (Rle_dec (FR drv_f) 0); [reflexivity|lra].
  Qed.
  Lemma hold_nonneg : 0 <= HR.
  Proof.
    apply total_nonneg. rewrite Forall_forall in *. intros s I. pose proof (Ps s I) as Q. pose proof (base_bounds b s Mb Q) as B.
    destruct Q as (_ & (_ & C) & (_ & T) & _). unfold hold. apply Rplus_le_le_0_compat; apply Rmult_le_pos; try lra. apply Rmax_l.
  Qed.
  Lemma fos_near : 2 * pull_error sl < HD -> hold_error (FR b) sl <= HD -> HR <= fair * HD ->
    exists F, ordinary_fos b sl = Some F /\ valid F /\
      Rabs (FR F - HR / HD) <= 3 * (hold_error (FR b) sl + HR / HD * pull_error sl) / HD + eta.
  Proof.
    intros LD LR LF. destruct drv_span as (VD & SD). destruct res_span as (VR & SR). pose proof hold_nonneg as H0.
    rewrite fos_shape. destruct (nz_FR 0 eq_refl) as (V0 & E0). cbn [nleb FNum]. rewrite leb_FR, E0 by assumption.
    assert (EU : 9 * u * HR <= hold_error (FR b) sl).
    { pose proof res_about as (_ & G & _). rewrite (Rabs_right HR) in G by lra. unfold hold_error. pose proof u_pos. pose proof dust_pos.
      pose proof (pos_INR (List.length sl)).
      assert (0 <= INR (List.length sl) * dust) by (apply Rmult_le_pos; lra).
      assert (9 * u * HR <= 9 * u * total (hold_gross (FR b)) sl) by (apply Rmult_le_compat_l; lra).
      assert (0 <= INR (List.length sl) * (u * total (hold_gross (FR b)) sl)).
      { apply Rmult_le_pos; [assumption|]. apply Rmult_le_pos; lra. }
      lra. }
    assert (P0 : 0 <= pull_error sl).
    { unfold pull_error. pose proof pull_gross_nonneg. pose proof u_pos. pose proof dust_pos. pose proof (pos_INR (List.length sl)).
      apply Rplus_le_le_0_compat; [|apply Rmult_le_pos; lra]. apply Rmult_le_pos; [|assumption]. apply Rmult_le_pos; lra. }
    assert (E1 : 0 <= hold_error (FR b) sl) by (pose proof u_pos; assert (0 <= u * HR) by (apply Rmult_le_pos; lra); lra).
    destruct (quot_near res_f drv_f HR HD _ _ VR VD SR SD H0 EU E1 P0 LD LR LF) as (Dp & V & E).
    unfold Rleb. destruct (Rle_dec (FR drv_f) 0); [lra|]. exists (ndiv res_f drv_f). auto.
  Qed.
End Fos.
