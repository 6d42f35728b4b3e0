(** * StrengthFacts: water and strength move the factor the right way (C25, C46). *)
From Coq Require Import ZArith Reals Lra Lia List Bool String Permutation Sorted.
From Verif Require Import Num Py Validation Utilities Objects Slope Planes Analysis
     Dynamic Api RealNum RealFacts ListFacts Spec CircleFacts PlaneFacts SoilFacts SliceFacts
     SearchFacts MatInv Invariant History EditFacts ViewFacts FosFacts FosMore.
Import ListNotations.
Local Open Scope R_scope.

Lemma Forall2_impl {A B} (P Q : A -> B -> Prop) l l' :
  (forall a b, P a b -> Q a b) -> Forall2 P l l' -> Forall2 Q l l'.
Proof. induction 2; constructor; auto. Qed.
Lemma Forall2_In_l {A B} (P : A -> B -> Prop) l l' x : Forall2 P l l' -> In x l ->
  exists y, In y l' /\ P x y.
Proof.
  induction 1 as [|a b l l' Q _ IH]; [intros []|]. intros [ <- | I ].
  - exists b. split; [now left|auto].
  - destruct (IH I) as (y & J & K). exists y. split; [now right|auto].
Qed.

(** ** One slice at least as strong as another *)
Record stronger (s s' : slice R) : Prop := {
  sg_W : sl_W s' = sl_W s;
  sg_cos : sl_cos s' = sl_cos s;
  sg_sin : sl_sin s' = sl_sin s;
  sg_c : 0 <= sl_c s <= sl_c s';
  sg_tan : 0 <= sl_tan s <= sl_tan s';
  sg_u : sl_u s' <= sl_u s;
  sg_pos : 0 < sl_cos s;
}.
Lemma driving_same sl sl' : Forall2 stronger sl sl' -> driving sl' = driving sl.
Proof.
  unfold driving. induction 1 as [|s s' sl sl' [W C SI _ _ _ _] _ IH]; cbn [map rsum]; auto.
  rewrite W, SI, IH. reflexivity.
Qed.
Lemma rsum_mono {A B} (f : A -> R) (g : B -> R) l l' :
  Forall2 (fun a b => f a <= g b) l l' -> rsum (map f l) <= rsum (map g l').
Proof. induction 1; cbn [map rsum]; lra. Qed.
Lemma resisting_mono w sl sl' : 0 < w -> Forall2 stronger sl sl' ->
  resisting w sl <= resisting w sl'.
Proof.
  intros Hw F. apply rsum_mono. eapply Forall2_impl; [|exact F].
  intros s s' [W C SI CO TA U P]. unfold base_len. rewrite W, C.
  assert (0 < w / sl_cos s) by now apply Rdiv_lt_0_compat.
  apply Rplus_le_compat.
  - apply Rmult_le_compat_r; lra.
  - apply Rmult_le_compat; try apply Rmax_l; try lra.
    apply Rle_max_compat_l. apply Rplus_le_compat_l, Ropp_le_contravar.
    apply Rmult_le_compat_r; lra.
Qed.

(** ** Bishop's iteration *)
(** Strength that does not depend on the factor, per slice *)
Definition strength (w : R) (s : slice R) : R :=
  sl_c s * w + (sl_W s - sl_u s * w) * sl_tan s.
Definition same_tan (s s' : slice R) : Prop := sl_tan s' = sl_tan s.

Lemma strength_mono w s s' : 0 < w -> stronger s s' -> same_tan s s' ->
  strength w s <= strength w s'.
Proof.
  intros Hw [W C SI CO TA U P] T. unfold strength. red in T. rewrite W, T.
  apply Rplus_le_compat; [apply Rmult_le_compat_r; lra|].
  apply Rmult_le_compat_r; [lra|]. apply Rplus_le_compat_l, Ropp_le_contravar.
  apply Rmult_le_compat_r; lra.
Qed.
(** From the same previous value, with positive denominators *)
Lemma step_mono w F sl sl' : 0 < w ->
  Forall2 (fun s s' => stronger s s' /\ same_tan s s') sl sl' ->
  (forall s, In s sl -> 0 < m_alpha F s) ->
  bishop_resisting w F sl <= bishop_resisting w F sl'.
Proof.
  intros Hw A. induction A as [|s s' sl sl' (ST & T) A IH]; intros M; [apply Rle_refl|].
  unfold bishop_resisting in *. cbn [map rsum]. apply Rplus_le_compat; [|apply IH; intros; apply M; now right].
  fold (strength w s) (strength w s').
  assert (E : m_alpha F s' = m_alpha F s).
  { unfold m_alpha. destruct ST as [_ -> -> _ _ _ _]. now rewrite T. }
  rewrite E. apply Rmult_le_compat_r; [|now apply strength_mono].
  left. apply Rinv_0_lt_compat. apply M. now left.
Qed.
(** and from two previous values when no base leans against the slide *)
Definition plain_slice (w : R) (s : slice R) : Prop :=
  0 < sl_cos s /\ 0 <= sl_tan s /\ 0 <= sl_sin s /\ 0 <= strength w s.
Lemma alpha_pos w F s : plain_slice w s -> 0 < F -> 0 < m_alpha F s.
Proof.
  intros (C & T & SI & _) HF. unfold m_alpha. apply Rplus_lt_le_0_compat; auto.
  apply Rmult_le_pos; [now apply Rmult_le_pos|]. left. now apply Rinv_0_lt_compat.
Qed.
Lemma resist_mono w sl F F' : 0 < F <= F' -> (forall s, In s sl -> plain_slice w s) ->
  bishop_resisting w F sl <= bishop_resisting w F' sl.
Proof.
  intros HF P. unfold bishop_resisting. apply rsum_mono.
  induction sl as [|s sl IH]; constructor.
  2:{ apply IH. intros t I. apply P. now right. }
  pose proof (P s (or_introl eq_refl)) as Ps. pose proof Ps as (C & T & SI & ST). fold (strength w s).
  apply Rmult_le_compat_l; auto. apply Rinv_le_contravar; [eapply alpha_pos; eauto; lra|].
  unfold m_alpha. apply Rplus_le_compat_l. apply Rmult_le_compat_l; [now apply Rmult_le_pos|].
  apply Rinv_le_contravar; lra.
Qed.
Lemma next_mono w sl sl' F F' G G' : 0 < w ->
  Forall2 (fun s s' => stronger s s' /\ same_tan s s') sl sl' ->
  (forall s, In s sl -> plain_slice w s) ->
  0 <= F <= F' -> next w sl F G -> next w sl' F' G' -> G <= G'.
Proof.
  intros Hw A P HF N N'.
  assert (D : driving sl' = driving sl).
  { apply driving_same. eapply Forall2_impl; [|exact A]. tauto. }
  destruct (Req_dec F 0) as [->|F0].
  { assert (G = 0) by (inversion N; subst; congruence). subst. eapply next_nonneg; eauto. }
  inversion N; subst; [|congruence]. inversion N'; subst; [|lra].
  rewrite D. apply Rmult_le_compat_r; [left; now apply Rinv_0_lt_compat|].
  apply Rle_trans with (bishop_resisting w F' sl).
  - apply resist_mono; auto. lra.
  - apply step_mono; auto. intros s I. eapply alpha_pos; eauto. lra.
Qed.
Lemma iterate_mono w sl sl' k : 0 < w ->
  Forall2 (fun s s' => stronger s s' /\ same_tan s s') sl sl' ->
  (forall s, In s sl -> plain_slice w s) ->
  forall F F' G G', 0 <= F <= F' -> iterate w sl k F G -> iterate w sl' k F' G' -> 0 <= G <= G'.
Proof.
  intros Hw A P. induction k as [|k IH]; intros F F' G G' HF I I'; inversion I; subst; inversion I'; subst; auto.
  split; [eapply next_nonneg; eauto|].
  match goal with N : next w sl ?X G, N' : next w sl' ?Y G' |- _ =>
    apply (next_mono w sl sl' X Y); eauto end.
Qed.

(** ** Two descriptions of a slope, the second at least as strong *)
Definition firmer (l l' : R * material R) : Prop :=
  fst l' = fst l /\ m_unit_weight (snd l') = m_unit_weight (snd l) /\
  m_cohesion (snd l) <= m_cohesion (snd l') /\ m_tan_phi (snd l) <= m_tan_phi (snd l').
Record harder (v v' : view R) : Prop := {
  hd_geom : v_geom v' = v_geom v;
  hd_udls : v_udls v' = v_udls v;
  hd_lls : v_lls v' = v_lls v;
  hd_slices : v_slices v' = v_slices v;
  hd_mats : Forall2 firmer (v_mats v) (v_mats v');
  hd_water : (v_water_RL v' = v_water_RL v /\ v_water_H v' = v_water_H v) \/ v_water_RL v' = None \/
    forall x yt yb, water_at (v_geom v) (v_water_H v') (v_water_RL v') x yt yb <=
                    water_at (v_geom v) (v_water_H v) (v_water_RL v) x yt yb;
}.

Lemma layer_at_rel (Q : R * material R -> R * material R -> Prop) L L' y m' :
  (forall l l', Q l l' -> fst l' = fst l) -> Forall2 Q L L' -> layer_at L' y m' ->
  exists rl m, layer_at L y m /\ Q (rl, m) (rl, m').
Proof.
  intros FQ F (above & rl & below & -> & AB & BE).
  apply Forall2_app_inv_r in F as (above0 & l2 & FA & F2 & ->).
  inversion F2 as [|[rl0 m] x2 below0 x4 Q1 FB]; subst.
  pose proof (FQ _ _ Q1) as E. cbn [fst] in E. subst rl0.
  exists rl, m. split; [|auto]. exists above0, rl, below0. split; auto. split.
  - clear - AB FA FQ. induction FA as [|a b l l' Q1 _ IH]; constructor; inversion AB; subst.
    + now rewrite <- (FQ _ _ Q1).
    + now apply IH.
  - destruct BE as [|BE]; auto. right. subst. now inversion FB.
Qed.
Lemma layer_at_firmer L L' y m' : Forall2 firmer L L' -> layer_at L' y m' ->
  exists m, layer_at L y m /\ m_unit_weight m' = m_unit_weight m /\
    m_cohesion m <= m_cohesion m' /\ m_tan_phi m <= m_tan_phi m'.
Proof.
  intros F LA. destruct (layer_at_rel firmer L L' y m') as (rl & m & A & B); auto.
  - intros l l' H. apply H.
  - exists m. split; auto. apply B.
Qed.
Lemma Forall2_and {A B} (P Q : A -> B -> Prop) l l' :
  Forall2 P l l' -> Forall2 Q l l' -> Forall2 (fun a b => P a b /\ Q a b) l l'.
Proof. induction 1; intros F; inversion F; subst; constructor; auto. Qed.

Lemma water_nonneg g H rl x yt yb : 0 <= H -> 0 <= water_at g H rl x yt yb.
Proof.
  intros HH. unfold water_at. destruct rl as [rl|]; [|lra]. destruct (Req_EM_T rl 0); [lra|].
  apply Rmult_le_pos; [apply Rmult_le_pos; [lra|apply Rmax_l]|].
  destruct (Rlt_dec _ rl); [|lra]. destruct (Rlt_dec x _); lra.
Qed.

(** Materials with usable strengths *)
Definition usable (v : view R) : Prop :=
  forall rl m, In (rl, m) (v_mats v) -> 0 <= m_cohesion m /\ 0 <= m_tan_phi m.

Lemma slice_stronger v v' cx cy r xl w i s s' : harder v v' -> usable v -> 0 <= v_water_H v ->
  0 < r -> slice_ok v cx cy r xl w i s -> slice_ok v' cx cy r xl w i s' -> stronger s s'.
Proof.
  intros [HG HU HL HS HM HW] US HH HR
         [X YB YT D C SI (W & SW & EW) (m & LM & EC & ET) U]
         [X' YB' YT' D' C' SI' (W' & SW' & EW') (m' & LM' & EC' & ET') U'].
  rewrite HG in *. rewrite HU, HL in *.
  assert (EB : sl_yb s' = sl_yb s) by congruence.
  assert (EY : sl_yt s' = sl_yt s) by congruence.
  rewrite EB, EY in *.
  destruct (layer_at_firmer _ _ _ _ HM LM') as (m0 & LM0 & _ & Q1 & Q2).
  pose proof (layer_at_unique _ _ _ _ LM0 LM) as ->.
  destruct (layer_at_In _ _ _ LM) as (rl & IM). destruct (US rl m IM) as (U1 & U2).
  assert (W' = W).
  { apply (soil_weight_det (v_mats v) w (sl_yb s) (sl_yt s)); auto.
    - intros E. rewrite E in IM. destruct IM.
    - rewrite YT. apply Rmax_r.
    - destruct SW as (uw & pr & UW & ->). destruct SW' as (uw' & pr' & UW' & ->).
      exists uw, pr. split; auto. f_equal. apply RiemannInt_P18; [rewrite YT; apply Rmax_r|].
      intros y _. destruct (layer_at_exists (v_mats v') y) as (k & LK).
      { intros E. rewrite E in LM'. destruct LM' as (ab & ? & be & Q & _). now destruct ab. }
      destruct (layer_at_firmer _ _ _ _ HM LK) as (k0 & LK0 & EK & _).
      rewrite (UW' y k LK), (UW y k0 LK0). auto. }
  subst W'. constructor; try congruence.
  - rewrite EC, EC'. lra.
  - rewrite ET, ET'. lra.
  - rewrite U, U'. destruct HW as [(-> & ->)|[ -> |HW]]; [lra| |apply HW].
    cbn [water_at]. apply water_nonneg; auto.
  - rewrite C. now apply Rdiv_lt_0_compat.
Qed.
Lemma width_same v v' a b : harder v v' -> width v' a b = width v a b.
Proof. intros []. unfold width. congruence. Qed.
Lemma slices_stronger v v' cx cy r a b sl sl' : harder v v' -> usable v -> 0 <= v_water_H v ->
  0 < r -> slices_ok v cx cy r a b sl -> slices_ok v' cx cy r a b sl' -> Forall2 stronger sl sl'.
Proof.
  intros HD US HH HR A B. unfold slices_ok in *. rewrite (width_same v v' a b HD) in B.
  rewrite (hd_slices v v' HD) in B. revert sl' B.
  induction A as [|i s l sl A1 A IH]; intros sl' B; inversion B; subst; constructor; auto.
  eapply slice_stronger; eauto.
Qed.
Lemma slices_tan v v' cx cy r a b sl sl' :
  harder v v' -> Forall2 (fun l l' => m_tan_phi (snd l') = m_tan_phi (snd l)) (v_mats v) (v_mats v') ->
  slices_ok v cx cy r a b sl -> slices_ok v' cx cy r a b sl' -> Forall2 same_tan sl sl'.
Proof.
  intros HD HT A B. unfold slices_ok in *. rewrite (width_same v v' a b HD) in B.
  rewrite (hd_slices v v' HD) in B. revert sl' B.
  induction A as [|i s l sl A1 A IH]; intros sl' B; inversion B; subst; constructor; auto.
  clear IH B H3 A. destruct A1 as [_ YB _ _ _ _ _ (m & LM & _ & ET) _].
  destruct H1 as [_ YB' _ _ _ _ _ (m' & LM' & _ & ET') _].
  rewrite YB', <- YB in LM'. red. rewrite ET, ET'.
  pose proof (Forall2_and _ _ _ _ (hd_mats v v' HD) HT) as F.
  apply (layer_at_rel _ _ _ _ _) with (2 := F) in LM' as (rl & m0 & L0 & _ & Q).
  - cbn [snd] in Q. rewrite Q. f_equal. eapply layer_at_unique; eauto.
  - intros l1 l2 (Q & _). apply Q.
Qed.

(** ** The ordinary factor of a circle *)
Lemma ordinary_harder v v' cx cy r a b : good_view v -> good_view v' -> harder v v' -> usable v ->
  0 <= v_water_H v -> water_fits v -> water_fits v' ->
  0 <= cx -> 0 <= cy -> 0 <= r -> end_points (v_geom v) cx cy r a b ->
  (ordinary v cx cy r a b = Ok None /\ ordinary v' cx cy r a b = Ok None) \/
  (exists f f', ordinary v cx cy r a b = Ok (Some f) /\ ordinary v' cx cy r a b = Ok (Some f') /\
     f <= f').
Proof.
  intros GV GV' HD US HH W W' D1 D2 D3 EP.
  pose proof (radius_pos v GV cx cy r a b D3 EP) as HR.
  assert (EP' : end_points (v_geom v') cx cy r a b) by (rewrite (hd_geom v v' HD); auto).
  assert (NE : v_mats v = [] <-> v_mats v' = []).
  { pose proof (hd_mats v v' HD) as F. split; intros E; rewrite E in F; now inversion F. }
  destruct (ordinary_spec v GV cx cy r a b D1 D2 D3 EP W) as [(M & E)|(sl & SO & E)],
           (ordinary_spec v' GV' cx cy r a b D1 D2 D3 EP' W') as [(M' & E')|(sl' & SO' & E')].
  - auto.
  - exfalso. apply (slices_mats _ _ _ _ _ _ _ (gv_slices v' GV') SO'). tauto.
  - exfalso. apply (slices_mats _ _ _ _ _ _ _ (gv_slices v GV) SO). tauto.
  - pose proof (slices_stronger _ _ _ _ _ _ _ _ _ HD US HH HR SO SO') as ST.
    rewrite (driving_same _ _ ST), (width_same v v' a b HD) in E'.
    destruct E as [(D & E)|(D & E)], E' as [(D' & E')|(D' & E')]; try lra; auto.
    right. eexists _, _. split; [exact E|]. split; [exact E'|].
    apply Rmult_le_compat_r; [left; now apply Rinv_0_lt_compat|].
    apply resisting_mono; auto. apply end_points_ok in EP as (_ & _ & _ & _ & LL); [|apply GV].
    unfold width. apply Rdiv_lt_0_compat; [lra|]. apply IZR_lt. pose proof (gv_slices v GV). lia.
Qed.

(** ** Bishop's iterates of a circle *)
Lemma sin_nonneg v cx cy r a b sl s : 0 < r -> (2 <= v_slices v)%Z -> fst a <= fst b <= cx ->
  slices_ok v cx cy r a b sl -> In s sl -> 0 <= sl_sin s.
Proof.
  intros HR N AB SO I. destruct (Forall2_In_r _ _ _ _ SO I) as (i & II & SK).
  rewrite (sk_sin _ _ _ _ _ _ _ _ SK). apply Rmult_le_pos; [|left; now apply Rinv_0_lt_compat].
  apply zrange_In in II. rewrite Z2Nat.id in II by lia. unfold mid_of, width.
  assert (0 < IZR (v_slices v)) by (apply IZR_lt; lia).
  assert ((IZR i + 1 / 2) / IZR (v_slices v) <= 1).
  { apply Rmult_le_reg_r with (IZR (v_slices v)); auto. unfold Rdiv at 1.
    rewrite Rmult_assoc, Rinv_l, Rmult_1_r, Rmult_1_l by lra.
    assert (IZR i + 1 <= IZR (v_slices v)) by (rewrite <- plus_IZR; apply IZR_le; lia). lra. }
  assert (((IZR i + 1 / 2) / IZR (v_slices v)) * (fst b - fst a) <= 1 * (fst b - fst a))
    by (apply Rmult_le_compat_r; lra).
  unfold Rdiv in *. lra.
Qed.

Definition same_friction (v v' : view R) : Prop :=
  Forall2 (fun l l' => m_tan_phi (snd l') = m_tan_phi (snd l)) (v_mats v) (v_mats v').
(** The weaker slope's circle: no base leans against the slide, and no base is
    lifted by water beyond its strength. *)
Lemma iterates_harder v v' cx cy r a b sl sl' k f f' :
  good_view v -> good_view v' -> harder v v' -> usable v -> same_friction v v' -> 0 <= v_water_H v ->
  0 < r -> end_points (v_geom v) cx cy r a b -> fst b <= cx ->
  slices_ok v cx cy r a b sl -> slices_ok v' cx cy r a b sl' ->
  (forall s, In s sl -> 0 <= strength (width v a b) s) -> 0 < driving sl ->
  iterate (width v a b) sl k (resisting (width v a b) sl / driving sl) f ->
  iterate (width v' a b) sl' k (resisting (width v' a b) sl' / driving sl') f' ->
  f <= f'.
Proof.
  intros GV GV' HD US SF HH HR EP BC SO SO' ST DR I I'.
  pose proof (slices_stronger _ _ _ _ _ _ _ _ _ HD US HH HR SO SO') as SG.
  pose proof (slices_tan _ _ _ _ _ _ _ _ _ HD SF SO SO') as TG.
  rewrite (driving_same _ _ SG), (width_same v v' a b HD) in I'.
  apply end_points_ok in EP as (_ & _ & _ & _ & LL); [|apply GV].
  assert (Hw : 0 < width v a b).
  { unfold width. apply Rdiv_lt_0_compat; [lra|]. apply IZR_lt. pose proof (gv_slices v GV). lia. }
  assert (PL : forall s, In s sl -> plain_slice (width v a b) s).
  { intros s Is. destruct (Forall2_In_l _ _ _ _ SG Is) as (s' & _ & G).
    split; [apply G|]. split; [apply G|]. split; [|auto].
    eapply (sin_nonneg v cx cy r a b); eauto; [apply GV|lra]. }
  apply (iterate_mono (width v a b) sl sl' k Hw (Forall2_and _ _ _ _ SG TG) PL) with (2 := I) (3 := I').
  split.
  - apply Rmult_le_pos; [|left; now apply Rinv_0_lt_compat].
    apply rsum_nonneg. intros x IX. apply in_map_iff in IX as (s & <- & Is).
    destruct (Forall2_In_l _ _ _ _ SG Is) as (s' & _ & [_ _ _ C T _ P]).
    apply Rplus_le_le_0_compat; apply Rmult_le_pos; try lra; [|apply Rmax_l].
    left. now apply Rdiv_lt_0_compat.
  - apply Rmult_le_compat_r; [left; now apply Rinv_0_lt_compat|]. now apply resisting_mono.
Qed.
(** One step from the same value *)
Lemma step_harder v v' cx cy r a b sl sl' F G G' :
  good_view v -> good_view v' -> harder v v' -> usable v -> same_friction v v' -> 0 <= v_water_H v ->
  0 < r -> end_points (v_geom v) cx cy r a b ->
  slices_ok v cx cy r a b sl -> slices_ok v' cx cy r a b sl' ->
  (forall s, In s sl -> 0 < m_alpha F s) ->
  next (width v a b) sl F G -> next (width v' a b) sl' F G' -> G <= G'.
Proof.
  intros GV GV' HD US SF HH HR EP SO SO' MA N N'.
  pose proof (slices_stronger _ _ _ _ _ _ _ _ _ HD US HH HR SO SO') as SG.
  pose proof (slices_tan _ _ _ _ _ _ _ _ _ HD SF SO SO') as TG.
  rewrite (width_same v v' a b HD) in N'.
  apply end_points_ok in EP as (_ & _ & _ & _ & LL); [|apply GV].
  assert (Hw : 0 < width v a b).
  { unfold width. apply Rdiv_lt_0_compat; [lra|]. apply IZR_lt. pose proof (gv_slices v GV). lia. }
  inversion N; subst.
  - inversion N'; subst; [|congruence]. rewrite (driving_same _ _ SG).
    apply Rmult_le_compat_r; [left; now apply Rinv_0_lt_compat|].
    apply step_mono; auto. now apply Forall2_and.
  - inversion N'; subst; [congruence|lra].
Qed.

(** ** Slopes *)
Lemma tan_mono a b : 0 <= a <= b -> b < 90 -> Rtan_py (a * (PI / 180)) <= Rtan_py (b * (PI / 180)).
Proof.
  intros A B. pose proof PI_RGT_0 as P.
  assert (Q : 0 <= a * (PI / 180) <= b * (PI / 180) /\ b * (PI / 180) < PI / 2) by (split; [split|]; nra).
  destruct Q as ((Q1 & Q2) & Q3).
  rewrite !Rtan_py_tan by (apply Rgt_not_eq, cos_gt_0; lra).
  destruct (Req_dec (a * (PI / 180)) (b * (PI / 180))) as [->|N]; [lra|].
  left. apply tan_increasing; lra.
Qed.

Section States.
  Context {EN : Env}.
  Notation stR := (st R).

  Lemma sound_usable s v : sound s v -> friction_90 s -> usable v.
  Proof.
    intros SV F rl m I. destruct (so_mats s v SV rl m I) as ((_ & F0 & C0 & _) & TO & _).
    split; auto. red in TO. rewrite TO. unfold nradians. unR. apply tan_nonneg. split; auto.
    apply F. rewrite <- (so_mats_eq s v SV). apply in_map_iff. now exists (rl, m).
  Qed.
  Lemma firmer_refl l : firmer l l.
  Proof. repeat split; lra. Qed.
  Lemma Forall2_refl {A} (P : A -> A -> Prop) l : (forall a, P a a) -> Forall2 P l l.
  Proof. intros H. induction l; constructor; auto. Qed.

  (** C25: the same slope without its water table *)
  Lemma drained s v : view_of s = Ok v -> exists v', view_of (step s RemoveWater) = Ok v' /\
    harder v v' /\ same_friction v v' /\ v_water_RL v' = None /\
    v_max_iterations v' = v_max_iterations v /\ v_tolerance v' = v_tolerance v /\
    entry_exit_planes v' = entry_exit_planes v /\
    s_planes (snd (step s RemoveWater)) = s_planes (snd s).
  Proof.
    intros E. unfold view_of in *. cbn [step exec remove_water_table snd] in *.
    destruct (rmapM _ (mats_of s)) as [ms|] eqn:E1; [|discriminate]. cbn [rbind] in E.
    destruct (rmapM _ (udls_of s)) as [us|] eqn:E2; [|discriminate]. cbn [rbind] in E.
    destruct (rmapM _ (lls_of s)) as [ls|] eqn:E3; [|discriminate]. cbn [rbind] in E.
    injection E as <-. unfold step. cbn [exec]. unfold remove_water_table. destruct s as [h sl].
    change (mats_of (snd ((self_upd (set_s_water_RL None) ;;;
              self_upd (set_s_water_depth None) ;;; reset_results) (h, sl)))) with (mats_of (h, sl)).
    change (udls_of (snd ((self_upd (set_s_water_RL None) ;;;
              self_upd (set_s_water_depth None) ;;; reset_results) (h, sl)))) with (udls_of (h, sl)).
    change (lls_of (snd ((self_upd (set_s_water_RL None) ;;;
              self_upd (set_s_water_depth None) ;;; reset_results) (h, sl)))) with (lls_of (h, sl)).
    rewrite E1, E2, E3. cbn [rbind]. eexists. split; [reflexivity|]. cbn.
    split; [|split; [apply Forall2_refl; auto|auto 10]].
    constructor; cbn; auto. apply Forall2_refl, firmer_refl.
  Qed.
  Lemma fits s v : sound s v ->
    (forall rl, s_water_RL (snd s) = Some rl -> rl <= g_ext_h (s_geom (snd s))) -> water_fits v.
  Proof. intros SV H rl. rewrite (so_water s v SV), (so_geom s v SV). apply H. Qed.

  Lemma ordinary_drained s v v' cx cy r a b : reachable s -> friction_90 s ->
    (forall rl, s_water_RL (snd s) = Some rl -> rl <= g_ext_h (s_geom (snd s))) ->
    view_of s = Ok v -> view_of (step s RemoveWater) = Ok v' ->
    0 <= cx -> 0 <= cy -> 0 <= r -> end_points (s_geom (snd s)) cx cy r a b ->
    (ordinary v cx cy r a b = Ok None /\ ordinary v' cx cy r a b = Ok None) \/
    (exists f f', ordinary v cx cy r a b = Ok (Some f) /\ ordinary v' cx cy r a b = Ok (Some f') /\
       f <= f').
  Proof.
    intros RS F W E E' D1 D2 D3 EP.
    destruct (view_sound s RS) as (v0 & E0 & SV). assert (v0 = v) by congruence. subst v0.
    destruct (view_sound _ (reachable_step RemoveWater s RS)) as (v0 & E1 & SV').
    assert (v0 = v') by congruence. subst v0.
    destruct (drained s v E) as (v0 & E2 & HD & _ & WN & _). assert (v0 = v') by congruence. subst v0.
    eapply ordinary_harder; eauto using sound_good.
    - eapply sound_usable; eauto.
    - apply SV.
    - eapply fits; eauto.
    - intros rl Q. congruence.
    - rewrite (so_geom s v SV). auto.
  Qed.

  (** Without iterations the reported factor is the ordinary one. *)
  Lemma factor_drained s v v' cx cy r f' : reachable s -> friction_90 s ->
    (s_max_iterations (snd s) <= 0)%Z ->
    (forall rl, s_water_RL (snd s) = Some rl -> rl <= g_ext_h (s_geom (snd s))) ->
    view_of s = Ok v -> view_of (step s RemoveWater) = Ok v' ->
    bishop v' cx cy r = Ok (Some f') ->
    exists f, bishop v cx cy r = Ok (Some f) /\ f <= f'.
  Proof.
    intros RS F K W E E' B'.
    destruct (view_sound s RS) as (v0 & E0 & SV). assert (v0 = v) by congruence. subst v0.
    destruct (view_sound _ (reachable_step RemoveWater s RS)) as (v0 & E1 & SV').
    assert (v0 = v') by congruence. subst v0.
    destruct (drained s v E) as (v0 & E2 & HD & _ & WN & MX & _). assert (v0 = v') by congruence. subst v0.
    pose proof (sound_good _ _ SV) as GV. pose proof (sound_good _ _ SV') as GV'.
    destruct (bishop_some v' GV' cx cy r f' B') as (D1 & D2 & D3 & a & b & sl' & EP & SO' & DR' & RP).
    rewrite (hd_geom v v' HD) in EP.
    assert (K0 : Z.to_nat (v_max_iterations v) = 0%nat) by (rewrite (so_max s v SV); lia).
    rewrite MX, K0 in RP. apply loop_some in RP. cbn [bishop_loop] in RP. injection RP as RP.
    destruct (water_total v (gv_geom v GV) (fits s v SV W)) as (o & WD).
    assert (D3' : 0 <= r) by lra.
    destruct (bishop_at v GV cx cy r o D1 D2 D3' WD) as
      [(l & C & L & _)|(a' & b' & EP' & Q)]; [exfalso; eapply end_points_two; eauto|].
    destruct (end_points_det _ _ _ _ _ _ _ _ EP EP') as (-> & ->).
    pose proof (slices_mats _ _ _ _ _ _ _ (gv_slices v' GV') SO') as NE.
    destruct Q as [(M & _)|(sl & SO & Q)].
    { exfalso. apply NE. pose proof (hd_mats v v' HD) as Fm. rewrite M in Fm. now inversion Fm. }
    pose proof (slices_stronger _ _ _ _ _ _ _ _ _ HD (sound_usable s v SV F) (proj1 (so_H s v SV)) D3 SO SO') as ST.
    rewrite (driving_same _ _ ST), (width_same v v' a b HD) in *.
    destruct Q as [(Q & _)|(DR & Q)]; [lra|].
    unfold fos_of in Q. rewrite K0 in Q. cbn [bishop_loop] in Q. eexists. split; [exact Q|].
    rewrite <- RP. apply Rmult_le_compat_r; [left; now apply Rinv_0_lt_compat|].
    apply resisting_mono; auto. apply end_points_ok in EP as (_ & _ & _ & _ & LL); [|apply GV].
    unfold width. apply Rdiv_lt_0_compat; [lra|]. apply IZR_lt. pose proof (gv_slices v GV). lia.
  Qed.

  (** and the minimum of an analysis does not rise with the water *)
  Lemma minimum_drained m (s s1 s2 : stR) f f' : reachable s -> friction_90 s ->
    (s_max_iterations (snd s) <= 0)%Z ->
    (forall rl, s_water_RL (snd s) = Some rl -> rl <= g_ext_h (s_geom (snd s))) ->
    analyse_slope m s = (Ok tt, s1) -> analyse_slope m (step s RemoveWater) = (Ok tt, s2) ->
    get_min_FOS (snd s1) = Ok (Some f) -> get_min_FOS (snd s2) = Ok (Some f') -> f <= f'.
  Proof.
    intros RS F K W A1 A2 G1 G2.
    destruct (min_spec m _ _ A1) as (v & cs & E & AN & [(Q & _)|(c & g & Q & _ & _ & _ & _ & MIN)]); [congruence|].
    destruct (min_spec m _ _ A2) as (v' & cs' & E' & AN' & [(Q' & _)|(c' & g' & Q' & IN' & FA' & _)]); [congruence|].
    assert (g = f) by congruence. subst g. assert (g' = f') by congruence. subst g'.
    destruct (drained s v E) as (v0 & E2 & HD & _ & _ & _ & _ & PL & SP). assert (v0 = v') by congruence. subst v0.
    assert (CS : cs' = cs).
    { unfold analysed in AN, AN'. rewrite SP, PL in AN'.
      destruct AN as [(N & X)|(N & X)], AN' as [(N' & X')|(N' & X')]; congruence. }
    subst cs'. unfold factor in FA'.
    destruct (factor_drained s v v' _ _ _ _ RS F K W E E' FA') as (h & FH & L).
    pose proof (MIN c' h IN' FH). lra.
  Qed.

  (** C46: two slopes that differ in the strength of their layers *)
  Definition tougher (m m' : material R) : Prop :=
    m_unit_weight m' = m_unit_weight m /\ m_RL m' = m_RL m /\ m_cohesion m <= m_cohesion m' /\
    (m_friction_angle m' = m_friction_angle m \/
     m_friction_angle m <= m_friction_angle m' < 90).
  Record reinforced (s s' : stR) : Prop := {
    rf_geom : s_geom (snd s') = s_geom (snd s);
    rf_udls : udls_of s' = udls_of s;
    rf_lls : lls_of s' = lls_of s;
    rf_slices : s_slices (snd s') = s_slices (snd s);
    rf_water : s_water_RL (snd s') = s_water_RL (snd s);
    rf_H : s_water_H (snd s') = s_water_H (snd s);
    rf_mats : Forall2 tougher (mats_of s) (mats_of s');
  }.
  Lemma Forall2_map2 {A B C D} (P : C -> D -> Prop) (f : A -> C) (g : B -> D) l : forall l',
    Forall2 P (map f l) (map g l') -> Forall2 (fun a b => P (f a) (g b)) l l'.
  Proof.
    induction l as [|a l IH]; intros [|b l'] H; inversion H; subst; constructor; auto.
  Qed.
  Lemma Forall2_in {A B} (P Q : A -> B -> Prop) l l' :
    (forall a b, In a l -> In b l' -> P a b -> Q a b) -> Forall2 P l l' -> Forall2 Q l l'.
  Proof.
    intros H F. induction F; constructor.
    - apply H; auto; now left.
    - apply IHF. intros; apply H; auto; now right.
  Qed.
  Lemma reinforced_harder s s' v v' : reachable s -> reachable s' -> reinforced s s' ->
    view_of s = Ok v -> view_of s' = Ok v' -> harder v v'.
  Proof.
    intros RS RS' [G U L SL W H M] E E'.
    destruct (view_sound s RS) as (v0 & E0 & SV). assert (v0 = v) by congruence. subst v0.
    destruct (view_sound s' RS') as (v0 & E1 & SV'). assert (v0 = v') by congruence. subst v0.
    constructor.
    - now rewrite (so_geom _ _ SV'), (so_geom _ _ SV).
    - unfold view_of in E, E'. rewrite U, L in E'.
      destruct (rmapM _ (mats_of s)); [|discriminate]. destruct (rmapM _ (mats_of s')); [|discriminate].
      cbn [rbind] in E, E'. destruct (rmapM _ (udls_of s)) as [us|]; [|discriminate]. cbn [rbind] in E, E'.
      destruct (rmapM _ (lls_of s)); [|discriminate]. cbn [rbind] in E, E'.
      injection E as <-. injection E' as <-. reflexivity.
    - unfold view_of in E, E'. rewrite U, L in E'.
      destruct (rmapM _ (mats_of s)); [|discriminate]. destruct (rmapM _ (mats_of s')); [|discriminate].
      cbn [rbind] in E, E'. destruct (rmapM _ (udls_of s)) as [us|]; [|discriminate]. cbn [rbind] in E, E'.
      destruct (rmapM _ (lls_of s)); [|discriminate]. cbn [rbind] in E, E'.
      injection E as <-. injection E' as <-. reflexivity.
    - now rewrite (so_slices _ _ SV'), (so_slices _ _ SV).
    - rewrite <- (so_mats_eq _ _ SV), <- (so_mats_eq _ _ SV') in M. apply Forall2_map2 in M.
      eapply Forall2_in; [|exact M]. intros [rl m] [rl' m'] I I' (T1 & T2 & T3 & T4). cbn [snd] in *.
      destruct (so_mats _ _ SV rl m I) as ((_ & F0 & _) & TO & _ & R1).
      destruct (so_mats _ _ SV' rl' m' I') as ((_ & F0' & _) & TO' & _ & R1').
      split; [cbn; congruence|]. split; [auto|]. split; [auto|]. cbn [snd].
      red in TO, TO'. rewrite TO, TO'. destruct T4 as [-> |T4]; [lra|].
      unfold nradians. unR. apply tan_mono; lra.
    - left. now rewrite (so_water _ _ SV'), (so_water _ _ SV), (so_H_eq _ _ SV'), (so_H_eq _ _ SV).
  Qed.
  Lemma ordinary_reinforced s s' v v' cx cy r a b : reachable s -> reachable s' -> reinforced s s' ->
    friction_90 s ->
    (forall rl, s_water_RL (snd s) = Some rl -> rl <= g_ext_h (s_geom (snd s))) ->
    view_of s = Ok v -> view_of s' = Ok v' ->
    0 <= cx -> 0 <= cy -> 0 <= r -> end_points (s_geom (snd s)) cx cy r a b ->
    (ordinary v cx cy r a b = Ok None /\ ordinary v' cx cy r a b = Ok None) \/
    (exists f f', ordinary v cx cy r a b = Ok (Some f) /\ ordinary v' cx cy r a b = Ok (Some f') /\
       f <= f').
  Proof.
    intros RS RS' RF F W E E' D1 D2 D3 EP.
    pose proof (reinforced_harder _ _ _ _ RS RS' RF E E') as HD.
    destruct (view_sound s RS) as (v0 & E0 & SV). assert (v0 = v) by congruence. subst v0.
    destruct (view_sound s' RS') as (v0 & E1 & SV'). assert (v0 = v') by congruence. subst v0.
    eapply ordinary_harder; eauto using sound_good.
    - eapply sound_usable; eauto.
    - apply SV.
    - eapply fits; eauto.
    - eapply fits; eauto. rewrite (rf_water _ _ RF), (rf_geom _ _ RF). auto.
    - rewrite (so_geom s v SV). auto.
  Qed.

  (** Bishop's iterates *)
  Lemma iterates_drained s v v' cx cy r a b sl sl' k f f' : reachable s -> friction_90 s ->
    view_of s = Ok v -> view_of (step s RemoveWater) = Ok v' ->
    0 < r -> end_points (s_geom (snd s)) cx cy r a b -> fst b <= cx ->
    slices_ok v cx cy r a b sl -> slices_ok v' cx cy r a b sl' ->
    (forall t, In t sl -> 0 <= strength (width v a b) t) -> 0 < driving sl ->
    iterate (width v a b) sl k (resisting (width v a b) sl / driving sl) f ->
    iterate (width v' a b) sl' k (resisting (width v' a b) sl' / driving sl') f' ->
    f <= f'.
  Proof.
    intros RS F E E' D3 EP BC SO SO' ST DR I I'.
    destruct (view_sound s RS) as (v0 & E0 & SV). assert (v0 = v) by congruence. subst v0.
    destruct (view_sound _ (reachable_step RemoveWater s RS)) as (v0 & E1 & SV').
    assert (v0 = v') by congruence. subst v0.
    destruct (drained s v E) as (v0 & E2 & HD & SF & _). assert (v0 = v') by congruence. subst v0.
    rewrite <- (so_geom s v SV) in EP.
    exact (iterates_harder v v' cx cy r a b sl sl' k f f' (sound_good _ _ SV) (sound_good _ _ SV') HD
      (sound_usable s v SV F) SF (proj1 (so_H s v SV)) D3 EP BC SO SO' ST DR I I').
  Qed.
  Lemma step_drained s v v' cx cy r a b sl sl' F G G' : reachable s -> friction_90 s ->
    view_of s = Ok v -> view_of (step s RemoveWater) = Ok v' ->
    0 < r -> end_points (s_geom (snd s)) cx cy r a b ->
    slices_ok v cx cy r a b sl -> slices_ok v' cx cy r a b sl' ->
    (forall t, In t sl -> 0 < m_alpha F t) ->
    next (width v a b) sl F G -> next (width v' a b) sl' F G' -> G <= G'.
  Proof.
    intros RS FR E E' D3 EP SO SO' MA N N'.
    destruct (view_sound s RS) as (v0 & E0 & SV). assert (v0 = v) by congruence. subst v0.
    destruct (view_sound _ (reachable_step RemoveWater s RS)) as (v0 & E1 & SV').
    assert (v0 = v') by congruence. subst v0.
    destruct (drained s v E) as (v0 & E2 & HD & SF & _). assert (v0 = v') by congruence. subst v0.
    rewrite <- (so_geom s v SV) in EP.
    exact (step_harder v v' cx cy r a b sl sl' F G G' (sound_good _ _ SV) (sound_good _ _ SV') HD
      (sound_usable s v SV FR) SF (proj1 (so_H s v SV)) D3 EP SO SO' MA N N').
  Qed.
  Lemma reinforced_friction s s' v v' : reachable s -> reachable s' ->
    Forall2 (fun m m' => m_friction_angle m' = m_friction_angle m) (mats_of s) (mats_of s') ->
    view_of s = Ok v -> view_of s' = Ok v' -> same_friction v v'.
  Proof.
    intros RS RS' M E E'.
    destruct (view_sound s RS) as (v0 & E0 & SV). assert (v0 = v) by congruence. subst v0.
    destruct (view_sound s' RS') as (v0 & E1 & SV'). assert (v0 = v') by congruence. subst v0.
    rewrite <- (so_mats_eq _ _ SV), <- (so_mats_eq _ _ SV') in M. apply Forall2_map2 in M.
    eapply Forall2_in; [|exact M]. intros [rl m] [rl' m'] I I' T. cbn [snd] in *.
    destruct (so_mats _ _ SV rl m I) as (_ & TO & _). destruct (so_mats _ _ SV' rl' m' I') as (_ & TO' & _).
    red in TO, TO'. now rewrite TO, TO', T.
  Qed.
  Lemma iterates_reinforced s s' v v' cx cy r a b sl sl' k f f' :
    reachable s -> reachable s' -> reinforced s s' -> friction_90 s ->
    Forall2 (fun m m' => m_friction_angle m' = m_friction_angle m) (mats_of s) (mats_of s') ->
    view_of s = Ok v -> view_of s' = Ok v' ->
    0 < r -> end_points (s_geom (snd s)) cx cy r a b -> fst b <= cx ->
    slices_ok v cx cy r a b sl -> slices_ok v' cx cy r a b sl' ->
    (forall t, In t sl -> 0 <= strength (width v a b) t) -> 0 < driving sl ->
    iterate (width v a b) sl k (resisting (width v a b) sl / driving sl) f ->
    iterate (width v' a b) sl' k (resisting (width v' a b) sl' / driving sl') f' ->
    f <= f'.
  Proof.
    intros RS RS' RF F M E E' D3 EP BC SO SO' ST DR I I'.
    pose proof (reinforced_harder _ _ _ _ RS RS' RF E E') as HD.
    pose proof (reinforced_friction _ _ _ _ RS RS' M E E') as SF.
    destruct (view_sound s RS) as (v0 & E0 & SV). assert (v0 = v) by congruence. subst v0.
    destruct (view_sound s' RS') as (v0 & E1 & SV'). assert (v0 = v') by congruence. subst v0.
    rewrite <- (so_geom s v SV) in EP.
    exact (iterates_harder v v' cx cy r a b sl sl' k f f' (sound_good _ _ SV) (sound_good _ _ SV') HD
      (sound_usable s v SV F) SF (proj1 (so_H s v SV)) D3 EP BC SO SO' ST DR I I').
  Qed.
  Lemma step_reinforced s s' v v' cx cy r a b sl sl' F G G' :
    reachable s -> reachable s' -> reinforced s s' -> friction_90 s ->
    Forall2 (fun m m' => m_friction_angle m' = m_friction_angle m) (mats_of s) (mats_of s') ->
    view_of s = Ok v -> view_of s' = Ok v' ->
    0 < r -> end_points (s_geom (snd s)) cx cy r a b ->
    slices_ok v cx cy r a b sl -> slices_ok v' cx cy r a b sl' ->
    (forall t, In t sl -> 0 < m_alpha F t) ->
    next (width v a b) sl F G -> next (width v' a b) sl' F G' -> G <= G'.
  Proof.
    intros RS RS' RF FR M E E' D3 EP SO SO' MA N N'.
    pose proof (reinforced_harder _ _ _ _ RS RS' RF E E') as HD.
    pose proof (reinforced_friction _ _ _ _ RS RS' M E E') as SF.
    destruct (view_sound s RS) as (v0 & E0 & SV). assert (v0 = v) by congruence. subst v0.
    destruct (view_sound s' RS') as (v0 & E1 & SV'). assert (v0 = v') by congruence. subst v0.
    rewrite <- (so_geom s v SV) in EP.
    exact (step_harder v v' cx cy r a b sl sl' F G G' (sound_good _ _ SV) (sound_good _ _ SV') HD
      (sound_usable s v SV FR) SF (proj1 (so_H s v SV)) D3 EP SO SO' MA N N').
  Qed.
End States.
