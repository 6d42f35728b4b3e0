(** * WeightNear: the computed weight of a slice against the exact one
    (pyslope.py:1415-1441, 1920-1993). *)
From Coq Require Import ZArith Reals Lra Lia Bool List SpecFloat.
From Verif Require Import Num FloatNum RealNum Py Objects Slope Planes Analysis RoundTheory NearFacts SumNear.
Import ListNotations.
Local Open Scope R_scope.

(** ** The exact weight *)
(** soil between the elevations [yb] and [yt] per unit width: the layers from the top down,
    each with its lower boundary and unit weight; the last one has no lower boundary *)
Fixpoint column (top : R) (layers : list (R * R)) (yt yb : R) : R :=
  match layers with
  | [] => 0
  | [(_, w)] => w * Rmax 0 (Rmin yt top - yb)
  | (bottom, w) :: rest => w * Rmax 0 (Rmin yt top - Rmax yb bottom) + column bottom rest yt yb
  end.
Definition strip_load (xl xr : R) (u : R * R * R) : R :=
  let '(l, r, q) := u in Rmax 0 (Rmin xr r - Rmax xl l) * q.
Definition line_load (xl xr : R) (p : R * R) : R :=
  let '(x, q) := p in if Rle_dec xl x then (if Rlt_dec x xr then q else 0) else 0.

(** ** One layer, one load *)
Lemma mul_comm a b : SFmul prec emax a b = SFmul prec emax b a.
Proof.
  destruct a as [sa|sa| |sa ma ea], b as [sb|sb| |sb mb eb]; cbn [SFmul]; rewrite ?(xorb_comm sb sa); try reflexivity.
  now rewrite (Pos.mul_comm mb ma), (Z.add_comm eb ea).
Qed.
(** a difference, or zero if it is negative *)
Lemma clip_about a b : valid a -> valid b -> Rabs (FR a) <= vast -> Rabs (FR b) <= vast ->
  let o := nsub a b in let v := Rmax 0 (FR a - FR b) in
  about (if SFltb o (@nz float FNum 0) then @nz float FNum 0 else o) v v 1 0 /\ about (pymax o (nz 0)) v v 1 0.
Proof.
  intros Va Vb Ba Bb o v. pose proof top_vast as TV. pose proof vast_big as VB.
  apply abs_span in Ba, Bb. destruct (sub_near a b Va Vb) as (Vo & No); [apply Rabs_def1; lra|].
  change (SFsub prec emax a b) with o in *. destruct (nz_FR 0 eq_refl) as (V0 & E0).
  pose proof u_pos as U.
  assert (P : 0 <= v) by apply Rmax_l.
  assert (K : about (if SFltb o (@nz float FNum 0) then @nz float FNum 0 else o) v v 1 0).
  { unfold about. rewrite ltb_FR, E0 by assumption. unfold Rltb. rewrite (Rabs_right v) by lra. unfold v, Rmax.
    destruct (Rle_dec 0 (FR a - FR b)) as [G|G].
    - rewrite (Rabs_right (FR a - FR b)) in No by lra. pose proof (abs_span _ _ No) as S. rewrite u_val in S.
      destruct (Rlt_dec (FR o) 0); [lra|]. split; [exact Vo|]. split; lra.
    - rewrite (Rabs_left (FR a - FR b)) in No by lra. pose proof (abs_span _ _ No) as S. rewrite u_val in S.
      destruct (Rlt_dec (FR o) 0); [|lra]. split; [exact V0|]. rewrite E0, Rminus_0_r, Rabs_R0. split; lra. }
  split; [exact K|]. destruct K as (_ & K2 & K3). destruct (pymax_FR o (nz 0) Vo V0) as (Vm & Em).
  split; [exact Vm|]. split; [exact K2|]. rewrite ltb_FR, E0 in K3 by assumption. rewrite Em, E0. unfold Rltb in K3.
  destruct (Rlt_dec (FR o) 0).
  - rewrite Rmax_right by lra. now rewrite E0 in K3.
  - rewrite Rmax_left by lra. exact K3.
Qed.
Lemma about_nonneg_mul x v w : about x v v 1 0 -> 0 <= v -> valid w -> 0 <= FR w -> v * FR w <= vast ->
  about (nmul x w) (v * FR w) (v * FR w) 3 eta.
Proof.
  intros A P V W B. pose proof (mul_about x w v v 1 0 A V) as M. rewrite (Rabs_right (FR w)) in M by lra.
  specialize (M ltac:(unfold many; lra) ltac:(lra) ltac:(lra)). apply about_weaken with (1 := M); lra.
Qed.
Definition span (x : float) : Prop := valid x /\ Rabs (FR x) <= vast.
Lemma span_min a b : span a -> span b -> span (pymin a b) /\ FR (pymin a b) = Rmin (FR a) (FR b).
Proof.
  intros (V & B) (W & C). destruct (pymin_FR a b V W) as (Vm & Em). split; [split; [exact Vm|]|exact Em]. rewrite Em.
  unfold Rmin. destruct (Rle_dec _ _); assumption.
Qed.
Lemma span_max a b : span a -> span b -> span (pymax a b) /\ FR (pymax a b) = Rmax (FR a) (FR b).
Proof.
  intros (V & B) (W & C). destruct (pymax_FR a b V W) as (Vm & Em). split; [split; [exact Vm|]|exact Em]. rewrite Em.
  unfold Rmax. destruct (Rle_dec _ _); assumption.
Qed.
Definition heavy (x : float) : Prop := valid x /\ 0 <= FR x.

(** the layers of the model and their exact parts *)
Definition part (yt yb : R) (l : float * option float * float) : R :=
  let '(top, bottom, w) := l in
  FR w * Rmax 0 (Rmin yt (FR top) - match bottom with Some b => Rmax yb (FR b) | None => yb end).
Definition soil_of (p : float * material float) : R * R := (FR (fst p), FR (m_unit_weight (snd p))).
Definition plain_layer (p : float * material float) : Prop := span (fst p) /\ heavy (m_unit_weight (snd p)).
Lemma total_parts yt yb mats : forall top,
  total (part yt yb) (layers top mats) = column (FR top) (map soil_of mats) yt yb.
Proof.
  induction mats as [|(rl, m) mats IH]; intros top; [reflexivity|].
  destruct mats as [|q mats].
  - cbn [layers map column total fold_right part soil_of fst snd]. lra.
  - change (layers top ((rl, m) :: q :: mats)) with ((top, Some rl, m_unit_weight m) :: layers rl (q :: mats)).
    cbn [total fold_right]. fold (total (part yt yb) (layers rl (q :: mats))). rewrite IH. reflexivity.
Qed.
Lemma layers_len mats : forall top : float, List.length (layers top mats) = List.length mats.
Proof.
  induction mats as [|(rl, m) [|q mats] IH]; intros top; [reflexivity|reflexivity|]. cbn [layers List.length] in *. f_equal. apply IH.
Qed.
Definition plain_part (l : float * option float * float) : Prop :=
  let '(top, bottom, w) := l in span top /\ heavy w /\ match bottom with Some b => span b | None => True end.
Lemma layers_plain mats : forall top, span top -> Forall plain_layer mats -> Forall plain_part (layers top mats).
Proof.
  induction mats as [|(rl, m) [|q mats] IH]; intros top Tp F; [constructor| |].
  - inversion F as [|? ? (A & B) F']; subst. constructor; [|constructor]. cbn. auto.
  - inversion F as [|? ? (A & B) F']; subst. cbn [fst snd] in *.
    change (layers top ((rl, m) :: q :: mats)) with ((top, Some rl, m_unit_weight m) :: layers rl (q :: mats)).
    constructor; [cbn; auto|]. apply IH; assumption.
Qed.
Lemma part_nonneg yt yb l : plain_part l -> 0 <= part yt yb l.
Proof. destruct l as ((top, bottom), w). intros (_ & (_ & P) & _). cbn [part]. apply Rmult_le_pos; [exact P|apply Rmax_l]. Qed.
Lemma total_member {A} (f : A -> R) l a : Forall (fun x => 0 <= f x) l -> In a l -> f a <= total f l.
Proof.
  induction 1 as [|x l P F IH]; intros I; [destruct I|]. cbn [total fold_right]. fold (total f l).
  pose proof (total_nonneg f l F). destruct I as [->|I]; [lra|]. specialize (IH I). lra.
Qed.
Lemma layer_about yt yb l : span yt -> span yb -> plain_part l -> part (FR yt) (FR yb) l <= vast ->
  about (layer_weight yt yb l) (part (FR yt) (FR yb) l) (part (FR yt) (FR yb) l) 3 eta.
Proof.
  intros Yt Yb. destruct l as ((top, bottom), w). intros (Tp & (Vw & Pw) & Bt) LV. cbn [layer_weight part] in *.
  destruct (span_min yt top Yt Tp) as ((V1 & B1) & E1). rewrite <- E1 in *.
  set (lo := match bottom with Some b => pymax yb b | None => yb end).
  assert (Lo : span lo /\ FR lo = match bottom with Some b => Rmax (FR yb) (FR b) | None => FR yb end).
  { unfold lo. destruct bottom as [b|]; [now apply span_max|]. auto. }
  destruct Lo as ((V2 & B2) & E2). rewrite <- E2 in *.
  destruct (clip_about _ _ V1 V2 B1 B2) as (K & _). cbn [nltb FNum].
  change (nmul w ?x) with (SFmul prec emax w x). rewrite mul_comm. rewrite (Rmult_comm (FR w)) in *.
  apply about_nonneg_mul; auto. apply Rmax_l.
Qed.

(** ** The soil of a strip *)
Definition fair : R := p2 400.
Definition dust : R := p2 (-500).
Lemma fair_vast : fair * fair <= / 8 * vast.
Proof.
  unfold fair, vast. rewrite <- p2_add. apply Rle_trans with (p2 (-3 + 900)); [apply p2_le; lia|].
  rewrite p2_add. apply Rmult_le_compat_r; [left; apply p2_pos|]. change (-3)%Z with (- (3))%Z. rewrite p2_neg, p2_IZR by lia.
  change (2 ^ 3)%Z with 8%Z. lra.
Qed.
Lemma fair_big : 1000000 <= fair.
Proof. unfold fair. apply Rle_trans with (p2 20); [|apply p2_le; lia]. rewrite p2_IZR by lia. apply IZR_le. vm_compute. discriminate. Qed.
Lemma eta_dust : 10000000000000 * eta * fair + eta <= dust.
Proof.
  assert (A : 10000000000000 <= p2 50) by (rewrite p2_IZR by lia; apply IZR_le; vm_compute; discriminate).
  pose proof eta_pos as E. pose proof fair_big as F. assert (P : 0 <= eta * fair) by (apply Rmult_le_pos; lra).
  apply Rle_trans with (2 * (p2 50 * (eta * fair))); [|].
  - assert (10000000000000 * (eta * fair) <= p2 50 * (eta * fair)) by (apply Rmult_le_compat_r; lra).
    assert (eta * 1 <= p2 50 * (eta * fair)); [|lra].
    rewrite (Rmult_comm (p2 50)), Rmult_assoc. apply Rmult_le_compat_l; [lra|]. rewrite <- (Rmult_1_l 1). apply Rmult_le_compat; lra.
  - unfold eta, fair, dust. rewrite <- p2_1, <- !p2_add. apply p2_le. lia.
Qed.
Lemma dust_pos : 0 < dust.
Proof. apply p2_pos. Qed.
Lemma dust_small : dust <= / 1000000.
Proof.
  unfold dust. apply Rle_trans with (p2 (-20)); [apply p2_le; lia|]. unfold p2. cbn [powerRZ].
  rewrite pow_IZR. apply Rinv_le_contravar; [lra|]. apply IZR_le. vm_compute. discriminate.
Qed.

Lemma soil_about (v : view float) b yt yb : span (g_ext_h (v_geom v)) -> Forall plain_layer (v_mats v) ->
  span yt -> span yb -> heavy b -> FR b <= fair ->
  let n := INR (List.length (v_mats v)) in n <= 1000000000000 ->
  let S := column (FR (g_ext_h (v_geom v))) (map soil_of (v_mats v)) (FR yt) (FR yb) in S <= fair ->
  0 <= S /\ about (strip_weight v b yt yb) (S * FR b) (S * FR b) (2 * n + 5) dust.
Proof.
  intros Te Fm Yt Yb (Vb & Pb) Bb n N S SF. pose proof fair_vast as FV. pose proof fair_big as FB. pose proof vast_big as VB.
  pose proof eta_pos as EP. pose proof eta_dust as ED. pose proof tiny_small as TS. pose proof eta_tiny as ET. rewrite u_val in ET.
  assert (FF : fair * 1 <= fair * fair) by (apply Rmult_le_compat_l; lra).
  pose proof (layers_plain _ _ Te Fm) as LP. set (ls := layers (g_ext_h (v_geom v)) (v_mats v)) in *.
  assert (TP : total (part (FR yt) (FR yb)) ls = S) by apply total_parts.
  assert (NN : Forall (fun l => 0 <= part (FR yt) (FR yb) l) ls).
  { apply Forall_forall. intros l I. rewrite Forall_forall in LP. apply part_nonneg. auto. }
  assert (S0 : 0 <= S) by (rewrite <- TP; now apply total_nonneg). split; [exact S0|].
  assert (FA : Forall (fun l => about (layer_weight yt yb l) (part (FR yt) (FR yb) l) (part (FR yt) (FR yb) l) 3 eta) ls).
  { apply Forall_forall. intros l I. rewrite Forall_forall in LP. apply layer_about; auto.
    apply Rle_trans with (total (part (FR yt) (FR yb)) ls); [now apply total_member|]. rewrite TP. lra. }
  assert (LN : List.length ls = List.length (v_mats v)) by apply layers_len.
  pose proof (sum_list_about (layer_weight yt yb) _ _ 3 eta ls FA ltac:(lra) ltac:(lra)) as Q. rewrite LN in Q. fold n in Q.
  specialize (Q N ltac:(rewrite TP; lra)). rewrite TP in Q.
  assert (N0 : 0 <= n) by apply pos_INR.
  assert (D : 2 * n * eta <= 2000000000000 * eta) by (apply Rmult_le_compat_r; lra).
  assert (D0 : 0 <= n * eta) by (apply Rmult_le_pos; lra).
  assert (SB : S * FR b <= fair * fair) by (apply Rmult_le_compat; lra).
  assert (EB : eta * FR b <= eta * fair) by (apply Rmult_le_compat_l; lra).
  assert (EB2 : 2 * n * eta * FR b <= 2000000000000 * eta * fair) by (apply Rmult_le_compat; lra).
  assert (EF : 0 <= eta * fair) by (apply Rmult_le_pos; lra). pose proof dust_small as DS.
  pose proof (mul_about _ b S S (3 + 2 * n) (2 * n * eta) Q Vb) as M. rewrite (Rabs_right (FR b)) in M by lra.
  specialize (M ltac:(unfold many; lra) ltac:(lra) ltac:(lra)).
  unfold strip_weight. fold ls. apply about_weaken with (1 := M); lra.
Qed.

(** ** The loads on a strip *)
Definition load_of (q : float * float * float) : R * R * R := (FR (fst (fst q)), FR (snd (fst q)), FR (snd q)).
Definition line_of (q : float * float) : R * R := (FR (fst q), FR (snd q)).
Definition plain_load (q : float * float * float) : Prop := span (fst (fst q)) /\ span (snd (fst q)) /\ heavy (snd q).
Definition plain_line (q : float * float) : Prop := span (fst q) /\ heavy (snd q).
Definition load_term (xl xr : float) (q : float * float * float) : float :=
  nmul (pymax (nsub (pymin xr (snd (fst q))) (pymax xl (fst (fst q)))) (nz 0)) (snd q).
Lemma load_nonneg xl xr q : plain_load q -> 0 <= strip_load xl xr (load_of q).
Proof. destruct q as ((l, r), m). intros (_ & _ & (_ & P)). cbn. apply Rmult_le_pos; [apply Rmax_l|exact P]. Qed.
Lemma line_nonneg xl xr q : plain_line q -> 0 <= line_load xl xr (line_of q).
Proof.
  destruct q as (x, m). intros (_ & (_ & P)). cbn in *. destruct (Rle_dec _ _); [|lra]. destruct (Rlt_dec _ _); lra.
Qed.
Lemma load_about xl xr q : span xl -> span xr -> plain_load q -> strip_load (FR xl) (FR xr) (load_of q) <= vast ->
  about (load_term xl xr q) (strip_load (FR xl) (FR xr) (load_of q)) (strip_load (FR xl) (FR xr) (load_of q)) 3 eta.
Proof.
  intros Xl Xr. destruct q as ((l, r), m). intros (Pl & Pr & (Vm & Pm)) LV. cbn [load_term strip_load load_of fst snd] in *.
  destruct (span_min xr r Xr Pr) as ((V1 & B1) & E1). rewrite <- E1 in *.
  destruct (span_max xl l Xl Pl) as ((V2 & B2) & E2). rewrite <- E2 in *.
  destruct (clip_about _ _ V1 V2 B1 B2) as (_ & K). apply about_nonneg_mul; auto. apply Rmax_l.
Qed.
Lemma udl_fold xl xr us : forall w : float, fold_left (udl_on xl xr) us w = fold_left (fun w q => nadd w (load_term xl xr q)) us w.
Proof. induction us as [|((l, r), m) us IH]; intros w; [reflexivity|]. cbn [fold_left]. apply IH. Qed.
Definition on_strip (xl xr : float) (q : float * float) : bool := nleb xl (fst q) && nltb (fst q) xr.
Lemma ll_fold xl xr ps : forall w : float,
  fold_left (ll_on xl xr) ps w = fold_left (fun w q => nadd w (snd q)) (filter (on_strip xl xr) ps) w.
Proof.
  induction ps as [|(x, m) ps IH]; intros w; [reflexivity|]. cbn [fold_left filter]. unfold on_strip at 1. cbn [fst].
  unfold ll_on at 2. destruct (nleb xl x && nltb x xr); cbn [fold_left snd]; apply IH.
Qed.
Lemma line_total xl xr ps : span xl -> span xr -> Forall plain_line ps ->
  total (fun q => FR (snd q)) (filter (on_strip xl xr) ps) = total (fun q => line_load (FR xl) (FR xr) (line_of q)) ps.
Proof.
  intros (Vl & _) (Vr & _). induction 1 as [|(x, m) ps ((Vx & _) & _) F IH]; [reflexivity|]. cbn [fst snd] in Vx.
  cbn [filter total fold_right]. fold (total (fun q => line_load (FR xl) (FR xr) (line_of q)) ps). rewrite <- IH.
  unfold on_strip at 1. cbn [fst nleb nltb FNum]. rewrite leb_FR, ltb_FR by assumption. cbn [line_load line_of fst snd].
  unfold Rleb, Rltb. destruct (Rle_dec (FR xl) (FR x)); cbn [andb]; [|now rewrite Rplus_0_l].
  destruct (Rlt_dec (FR x) (FR xr)); [|now rewrite Rplus_0_l].
  reflexivity.
Qed.
Lemma filter_len {A} (f : A -> bool) l : (List.length (filter f l) <= List.length l)%nat.
Proof. induction l as [|a l IH]; cbn; [lia|]. destruct (f a); cbn; lia. Qed.

(** ** The weight of a slice *)
Definition slice_load (v : view float) (b yt yb xl xr : R) : R :=
  column (FR (g_ext_h (v_geom v))) (map soil_of (v_mats v)) yt yb * b +
  total (fun q => strip_load xl xr (load_of q)) (v_udls v) + total (fun q => line_load xl xr (line_of q)) (v_lls v).
Definition plain_view (v : view float) : Prop :=
  span (g_ext_h (v_geom v)) /\ Forall plain_layer (v_mats v) /\ Forall plain_load (v_udls v) /\ Forall plain_line (v_lls v) /\
  INR (List.length (v_mats v)) <= 1000000000000 /\ INR (List.length (v_udls v)) <= 1000000000000 /\
  INR (List.length (v_lls v)) <= 1000000000000.

Lemma slice_weight_about (v : view float) b yt yb xl xr : plain_view v ->
  span yt -> span yb -> span xl -> span xr -> heavy b -> FR b <= fair ->
  column (FR (g_ext_h (v_geom v))) (map soil_of (v_mats v)) (FR yt) (FR yb) <= fair ->
  let W := slice_load v (FR b) (FR yt) (FR yb) (FR xl) (FR xr) in W <= vast ->
  let count := INR (List.length (v_mats v)) + INR (List.length (v_udls v)) + INR (List.length (v_lls v)) in
  about (fold_left (ll_on xl xr) (v_lls v) (fold_left (udl_on xl xr) (v_udls v) (strip_weight v b yt yb)))
        W W (2 * count + 5) ((2 * count + 1) * dust).
Proof.
  intros (Te & Fm & Fu & Fl & Nm & Nu & Nl) Yt Yb Xl Xr Hb Bb CF W WV count.
  destruct (soil_about v b yt yb Te Fm Yt Yb Hb Bb Nm CF) as (C0 & A0). unfold slice_load in W.
  set (C := column (FR (g_ext_h (v_geom v))) (map soil_of (v_mats v)) (FR yt) (FR yb)) in *.
  set (U := total (fun q => strip_load (FR xl) (FR xr) (load_of q)) (v_udls v)) in *.
  set (P := total (fun q => line_load (FR xl) (FR xr) (line_of q)) (v_lls v)) in *.
  set (n := INR (List.length (v_mats v))) in *. set (m := INR (List.length (v_udls v))) in *. set (p := INR (List.length (v_lls v))) in *.
  assert (N0 : 0 <= n) by apply pos_INR. assert (M0 : 0 <= m) by apply pos_INR. assert (P0 : 0 <= p) by apply pos_INR.
  assert (NU : Forall (fun q => 0 <= strip_load (FR xl) (FR xr) (load_of q)) (v_udls v)).
  { apply Forall_forall. intros q I. apply load_nonneg. rewrite Forall_forall in Fu. auto. }
  assert (NL : Forall (fun q => 0 <= line_load (FR xl) (FR xr) (line_of q)) (v_lls v)).
  { apply Forall_forall. intros q I. apply line_nonneg. rewrite Forall_forall in Fl. auto. }
  assert (U0 : 0 <= U) by (now apply total_nonneg). assert (P1 : 0 <= P) by (now apply total_nonneg).
  assert (CB : 0 <= C * FR b) by (apply Rmult_le_pos; [lra|apply Hb]).
  pose proof dust_pos as DP. pose proof dust_small as DS. pose proof vast_big as VB. pose proof eta_dust as ED. pose proof eta_pos as EP.
  assert (ED' : eta <= dust).
  { assert (0 <= 10000000000000 * eta * fair) by (pose proof fair_big; apply Rmult_le_pos; lra). lra. }
  assert (MD : m * dust <= 1000000000000 * / 1000000) by (apply Rmult_le_compat; lra).
  assert (PD : p * dust <= 1000000000000 * / 1000000) by (apply Rmult_le_compat; lra).
  assert (MD' : m * dust <= 1000000000000 * dust) by (apply Rmult_le_compat_r; lra).
  assert (PD' : p * dust <= 1000000000000 * dust) by (apply Rmult_le_compat_r; lra).
  assert (MD0 : 0 <= m * dust) by (apply Rmult_le_pos; lra). assert (PD0 : 0 <= p * dust) by (apply Rmult_le_pos; lra).
  assert (ND0 : 0 <= n * dust) by (apply Rmult_le_pos; lra).
  assert (VB' : 10000000 <= vast).
  { apply Rle_trans with (p2 30); [|apply p2_le; lia]. rewrite p2_IZR by lia. apply IZR_le. vm_compute. discriminate. }
  (* the distributed loads *)
  rewrite udl_fold.
  assert (FA : Forall (fun q => about (load_term xl xr q) (strip_load (FR xl) (FR xr) (load_of q)) (strip_load (FR xl) (FR xr) (load_of q)) 3 dust) (v_udls v)).
  { apply Forall_forall. intros q I. pose proof (total_member (fun q => strip_load (FR xl) (FR xr) (load_of q)) _ q NU I) as TM. cbn beta in TM.
    fold U in TM. rewrite Forall_forall in Fu. apply about_weaken with 3 eta; [|lra|lra]. apply load_about; auto. unfold W in WV. lra. }
  pose proof (fold_about (load_term xl xr) _ _ 3 dust (v_udls v) FA ltac:(lra) ltac:(lra) _ _ _ _ _ A0) as Q.
  fold m U in Q. rewrite u_val in Q.
  specialize (Q ltac:(lra) ltac:(lra) ltac:(unfold many; lra) ltac:(lra) ltac:(unfold W in WV; lra) ltac:(lra) ltac:(lra)).
  (* the line loads *)
  rewrite ll_fold. set (ps := filter (on_strip xl xr) (v_lls v)).
  assert (TP : total (fun q => FR (snd q)) ps = P) by (apply line_total; auto).
  assert (FP : Forall (fun q : float * float => about (snd q) (FR (snd q)) (FR (snd q)) 3 dust) ps).
  { apply Forall_forall. intros q I. apply filter_In in I. destruct I as (I & _). rewrite Forall_forall in Fl.
    destruct (Fl q I) as (_ & V & Z). pose proof (about_exact _ V) as E. rewrite (Rabs_right (FR (snd q))) in E by lra.
    apply about_weaken with (1 := E); lra. }
  assert (LP : INR (List.length ps) <= p) by (apply le_INR, filter_len). pose proof (pos_INR (List.length ps)) as LP0.
  set (k := INR (List.length ps)) in *.
  assert (KD : k * dust <= p * dust) by (apply Rmult_le_compat_r; lra). assert (KD0 : 0 <= k * dust) by (apply Rmult_le_pos; lra).
  pose proof (fold_about (fun q : float * float => snd q) (fun q => FR (snd q)) (fun q => FR (snd q)) 3 dust ps FP ltac:(lra) ltac:(lra) _ _ _ _ _ Q) as Q2.
  fold k in Q2. rewrite TP, u_val in Q2.
  specialize (Q2 ltac:(lra) ltac:(lra) ltac:(unfold many; lra) ltac:(lra) ltac:(unfold W in WV; lra) ltac:(lra) ltac:(lra)).
  unfold W. apply about_weaken with (1 := Q2); unfold count; lra.
Qed.
