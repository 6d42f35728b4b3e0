(** * FosFacts: ordinary and Bishop factor of one circle (C35, C41-C44, C47). *)
From Coq Require Import ZArith Reals Lra Lia List Bool String Permutation Sorted.
From Verif Require Import Num Py Validation Utilities Objects Slope Planes Analysis
     Dynamic Api RealNum RealFacts ListFacts Spec CircleFacts PlaneFacts SoilFacts SliceFacts
     SearchFacts MatInv Invariant History ViewFacts.
Import ListNotations.
Local Open Scope R_scope.

(** ** The two methods, written out *)
Definition driving (sl : list (slice R)) : R := rsum (map (fun s => sl_W s * sl_sin s) sl).
(** length of the base of a slice of width [w] *)
Definition base_len (w : R) (s : slice R) : R := w / sl_cos s.
Definition resisting (w : R) (sl : list (slice R)) : R :=
  rsum (map (fun s => sl_c s * base_len w s +
                      Rmax 0 (sl_W s * sl_cos s - sl_u s * base_len w s) * sl_tan s) sl).
Definition m_alpha (F : R) (s : slice R) : R := sl_cos s + sl_sin s * sl_tan s / F.
Definition bishop_resisting (w F : R) (sl : list (slice R)) : R :=
  rsum (map (fun s => (sl_c s * w + (sl_W s - sl_u s * w) * sl_tan s) / m_alpha F s) sl).
(** One turn of Bishop's iteration; at zero numpy's division makes every
    denominator infinite. *)
Inductive next (w : R) (sl : list (slice R)) : R -> R -> Prop :=
| next_turn F : F <> 0 -> (forall s, In s sl -> m_alpha F s <> 0) ->
    0 < driving sl -> 0 <= bishop_resisting w F sl ->
    next w sl F (bishop_resisting w F sl / driving sl)
| next_zero : (forall s, In s sl -> sl_sin s * sl_tan s <> 0) -> 0 < driving sl ->
    next w sl 0 0.
Inductive iterate (w : R) (sl : list (slice R)) : nat -> R -> R -> Prop :=
| iterate_0 F : iterate w sl 0 F F
| iterate_S k F F1 F2 : iterate w sl k F F1 -> next w sl F1 F2 -> iterate w sl (S k) F F2.

Lemma next_det w sl F F1 F2 : next w sl F F1 -> next w sl F F2 -> F1 = F2.
Proof. intros H1 H2. inversion H1; subst; inversion H2; subst; auto; congruence. Qed.
Lemma iterate_det w sl k F F1 : iterate w sl k F F1 -> forall F2, iterate w sl k F F2 -> F1 = F2.
Proof.
  induction 1; intros F' I'; inversion I'; subst; auto.
  assert (F1 = F3) by auto. subst. eapply next_det; eauto.
Qed.
Lemma iterate_front w sl k : forall F F1 F2,
  next w sl F F1 -> iterate w sl k F1 F2 -> iterate w sl (S k) F F2.
Proof.
  induction k as [|k IH]; intros F F1 F2 N I; inversion I; subst.
  - econstructor; [constructor|auto].
  - econstructor; [|eauto]. eapply IH; eauto.
Qed.
Lemma next_nonneg w sl F F' : next w sl F F' -> 0 <= F'.
Proof.
  intros N; inversion N; subst; [|lra]. apply Rmult_le_pos; auto.
  left. now apply Rinv_0_lt_compat.
Qed.

(** ** The code computes them *)
Lemma ordinary_fos_R w sl : ordinary_fos w sl =
  if Rle_dec (driving sl) 0 then None else Some (resisting w sl / driving sl).
Proof.
  unfold ordinary_fos. rewrite !nsum_R. unR.
  unfold resisting, driving, base_len, Rleb. unR.
  destruct (Rle_dec _ 0); auto. do 3 f_equal. apply map_ext. intros s.
  now rewrite ?pymax_R.
Qed.

Lemma bishop_step_some w sl F F' : bishop_step w sl F = Ok (Some F') <-> next w sl F F'.
Proof.
  unfold bishop_step. cbv zeta. rewrite ?nsum_R. unR. split.
  - destruct (Reqb F 0) eqn:E0; rbool.
    + subst F. destruct (existsb _ sl) eqn:EX; [discriminate|]. rewrite existsb_false in EX.
      rewrite ?nsum_R. rewrite rsum_zero, (proj2 (Rltb_false 0 0)) by lra. rewrite orb_false_r.
      destruct (Rleb _ 0) eqn:ED; rbool; [discriminate|]. intros E. injection E as <-.
      fold (driving sl) in *. unfold Rdiv. rewrite Rmult_0_l. apply next_zero; auto.
      intros s I. specialize (EX s I). now apply Reqb_false.
    + destruct (existsb _ sl) eqn:EX; [discriminate|]. rewrite existsb_false in EX.
      rewrite ?nsum_R. fold (driving sl). change (rsum (map _ sl)) with (bishop_resisting w F sl) at 1 2.
      destruct (_ || _) eqn:ED; [discriminate|]. rbool. intros E. injection E as <-.
      apply next_turn; auto. intros s I. specialize (EX s I). now apply Reqb_false.
  - intros N. inversion N; subst.
    + rewrite (proj2 (Reqb_false F 0)) by auto. rewrite (proj2 (existsb_false _ _)).
      2:{ intros s I. apply Reqb_false. now apply H0. }
      rewrite ?nsum_R. fold (driving sl). change (rsum (map _ sl)) with (bishop_resisting w F sl) at 1 2.
      rewrite (proj2 (Rleb_false _ _)), (proj2 (Rltb_false _ _)) by lra. reflexivity.
    + rewrite Reqb_refl. rewrite (proj2 (existsb_false _ _)).
      2:{ intros s I. apply Reqb_false. now apply H. }
      rewrite ?nsum_R. fold (driving sl). rewrite rsum_zero.
      rewrite (proj2 (Rleb_false _ _)), (proj2 (Rltb_false _ _)) by lra. cbn [orb].
      unfold Rdiv. now rewrite Rmult_0_l.
Qed.
Lemma bishop_step_err w sl F e : bishop_step w sl F = Err e ->
  e = NanProduced /\ F = 0 /\ exists s, In s sl /\ sl_sin s * sl_tan s = 0.
Proof.
  unfold bishop_step. unR. destruct (Reqb F 0) eqn:E0; rbool.
  - destruct (existsb _ sl) eqn:EX; [|discriminate]. intros E. injection E as <-.
    apply existsb_exists in EX as (s & I & Q). rbool. split; auto. split; auto. eauto.
  - destruct (existsb _ sl); discriminate.
Qed.

Lemma iterate_back w sl k : forall F F2, iterate w sl (S k) F F2 ->
  exists F1, next w sl F F1 /\ iterate w sl k F1 F2.
Proof.
  induction k as [|k IH]; intros F F2 I; inversion I; subst.
  - inversion H0; subst. exists F2. split; auto. constructor.
  - destruct (IH _ _ H0) as (X & N & I'). exists X. split; auto. econstructor; eauto.
Qed.

(** [k] turns at most, stopping at the first change below the tolerance *)
Definition reported (w tol : R) (sl : list (slice R)) (k : nat) (F f : R) : Prop :=
  exists j, (j <= k)%nat /\ iterate w sl j F f /\
    (forall i F1 F2, (S i < j)%nat -> iterate w sl i F F1 -> next w sl F1 F2 -> tol <= Rabs (F2 - F1)) /\
    ((j < k)%nat -> exists i F1, j = S i /\ iterate w sl i F F1 /\ Rabs (f - F1) < tol).

Lemma loop_some w tol sl k : forall F f,
  bishop_loop w tol sl k F = Ok (Some f) <-> reported w tol sl k F f.
Proof.
  induction k as [|k IH]; intros F f; cbn [bishop_loop].
  - split.
    + intros E. injection E as <-. exists 0%nat. split; [lia|]. split; [constructor|].
      split; [intros; lia|]. lia.
    + intros (j & J & I & _). assert (j = 0%nat) by lia. subst. inversion I; subst; auto.
  - split.
    + destruct (bishop_step w sl F) as [[F1|]|e] eqn:ES; cbn [rbind]; try discriminate.
      apply bishop_step_some in ES. unR. destruct (Rltb _ tol) eqn:ET; rbool.
      * intros E. injection E as <-. exists 1%nat. split; [lia|].
        split; [econstructor; [constructor|auto]|]. split; [intros; lia|].
        intros _. exists 0%nat, F. split; auto. split; [constructor|auto].
      * intros E. apply IH in E as (j & J & I & A & B). exists (S j).
        split; [lia|]. split; [eapply iterate_front; eauto|]. split.
        -- intros [|i] X Y L I1 N.
           ++ inversion I1; subst. rewrite <- (next_det _ _ _ _ _ ES N). auto.
           ++ apply iterate_back in I1 as (Z & N1 & I1). rewrite <- (next_det _ _ _ _ _ ES N1) in I1.
              apply (A i X Y); auto. lia.
        -- intros L. destruct (B ltac:(lia)) as (i & X & -> & I1 & Q).
           exists (S i), X. split; auto. split; auto. eapply iterate_front; eauto.
    + intros (j & J & I & A & B). destruct j as [|j].
      { destruct (B ltac:(lia)) as (i & X & Q & _). discriminate. }
      apply iterate_back in I as (F1 & N & I).
      rewrite (proj2 (bishop_step_some _ _ _ _) N). cbn [rbind]. unR.
      destruct (Rltb _ tol) eqn:ET; rbool.
      * destruct j as [|j]; [inversion I; subst; auto|].
        specialize (A 0%nat F F1 ltac:(lia) (iterate_0 _ _ _) N). lra.
      * apply IH. exists j. split; [lia|]. split; auto. split.
        -- intros i X Y L I1 N1. apply (A (S i) X Y); auto; [lia|]. eapply iterate_front; eauto.
        -- intros L. destruct (B ltac:(lia)) as (i & X & Q & I1 & T). injection Q as ->.
           destruct i as [|i].
           ++ inversion I1; subst. inversion I; subst. lra.
           ++ exists i, X. split; auto. split; auto.
              apply iterate_back in I1 as (Z & N1 & I1). now rewrite (next_det _ _ _ _ _ N N1).
Qed.
Lemma loop_err w tol sl k : forall F e, bishop_loop w tol sl k F = Err e -> e = NanProduced.
Proof.
  induction k as [|k IH]; intros F e; cbn [bishop_loop]; [discriminate|].
  destruct (bishop_step w sl F) as [[F1|]|e'] eqn:ES; cbn [rbind]; try discriminate.
  - destruct (nltb _ _); [discriminate|]. apply IH.
  - intros E. injection E as <-. now apply bishop_step_err in ES.
Qed.
(** When the circle is given up: an iterate has a zero denominator or gives a
    negative resistance. *)
Definition stuck (w : R) (sl : list (slice R)) (F : R) : Prop :=
  F <> 0 /\ ((exists s, In s sl /\ m_alpha F s = 0) \/
             ((forall s, In s sl -> m_alpha F s <> 0) /\ bishop_resisting w F sl < 0)).
Lemma bishop_step_none w sl F : 0 < driving sl ->
  (bishop_step w sl F = Ok None <-> stuck w sl F).
Proof.
  intros D. unfold bishop_step. cbv zeta. rewrite ?nsum_R. unR. fold (driving sl).
  rewrite (proj2 (Rleb_false (driving sl) 0)) by auto. cbn [orb]. unfold stuck. split.
  - destruct (Reqb F 0) eqn:E0; rbool.
    + destruct (existsb _ sl) eqn:EX; [discriminate|].
      rewrite rsum_zero, (proj2 (Rltb_false 0 0)) by lra. discriminate.
    + intros E. split; auto. destruct (existsb _ sl) eqn:EX.
      * left. apply existsb_exists in EX as (s & I & Q). rbool. eauto.
      * right. rewrite existsb_false in EX. split.
        { intros s I. specialize (EX s I). now apply Reqb_false. }
        change (rsum (map _ sl)) with (bishop_resisting w F sl) in E.
        destruct (Rltb (bishop_resisting w F sl) 0) eqn:EL; rbool; auto. discriminate.
  - intros (F0 & [(s & I & Q)|(Q & L)]); rewrite (proj2 (Reqb_false F 0)) by auto.
    + rewrite (proj2 (existsb_exists _ _)); auto. exists s. split; auto. now apply Reqb_true.
    + rewrite (proj2 (existsb_false _ _)).
      2:{ intros s I. apply Reqb_false. now apply Q. }
      change (rsum (map _ sl)) with (bishop_resisting w F sl).
      rewrite (proj2 (Rltb_true _ _)); auto.
Qed.
Lemma loop_none w tol sl k : 0 < driving sl -> forall F,
  bishop_loop w tol sl k F = Ok None ->
  exists j F1, (j < k)%nat /\ iterate w sl j F F1 /\ stuck w sl F1.
Proof.
  intros D. induction k as [|k IH]; intros F; cbn [bishop_loop]; [discriminate|].
  destruct (bishop_step w sl F) as [[F1|]|e] eqn:ES; cbn [rbind]; try discriminate.
  - destruct (nltb _ _); [discriminate|]. intros E.
    apply bishop_step_some in ES. destruct (IH _ E) as (j & X & J & I & SK).
    exists (S j), X. split; [lia|]. split; auto. eapply iterate_front; eauto.
  - intros _. apply bishop_step_none in ES; auto. exists 0%nat, F. split; [lia|].
    split; auto. constructor.
Qed.
Lemma loop_nan w tol sl k : forall F,
  bishop_loop w tol sl k F = Err NanProduced ->
  exists j, (j < k)%nat /\ iterate w sl j F 0 /\ exists s, In s sl /\ sl_sin s * sl_tan s = 0.
Proof.
  induction k as [|k IH]; intros F; cbn [bishop_loop]; [discriminate|].
  destruct (bishop_step w sl F) as [[F1|]|e] eqn:ES; cbn [rbind]; try discriminate.
  - destruct (nltb _ _); [discriminate|]. intros E.
    apply bishop_step_some in ES. destruct (IH _ E) as (j & J & I & SK).
    exists (S j). split; [lia|]. split; auto. eapply iterate_front; eauto.
  - intros _. apply bishop_step_err in ES as (_ & -> & Q). exists 0%nat. split; [lia|].
    split; auto. constructor.
Qed.

(** ** A whole circle *)
Record good_view (v : view R) : Prop := {
  gv_geom : good_geom (v_geom v);
  gv_desc : descending (v_mats v);
  gv_slices : (2 <= v_slices v)%Z;
}.
Lemma sound_good s v : sound s v -> good_view v.
Proof. intros S. destruct S. constructor; auto. lia. Qed.
(** The water level is not above the model. *)
Definition water_fits (v : view R) : Prop :=
  forall rl, v_water_RL v = Some rl -> rl <= g_ext_h (v_geom v).
(** Width of the slices between two points, and the slices *)
Definition width (v : view R) (a b : R * R) : R := (fst b - fst a) / IZR (v_slices v).
Definition slices_ok (v : view R) (cx cy r : R) (a b : R * R) (sl : list (slice R)) : Prop :=
  Forall2 (slice_ok v cx cy r (fst a) (width v a b)) (zrange 0 (Z.to_nat (v_slices v))) sl.

Lemma assert_pos x : assert_strictly_positive_number (PFloat x) =
  if Rltb x 0 then Err ValueError else Ok tt.
Proof. unfold assert_strictly_positive_number. cbn [isinstance_num negb as_num rbind]. unR. reflexivity. Qed.

Lemma nil_or {A} (l : list A) : {l = []} + {l <> []}.
Proof. destruct l; [left|right]; congruence. Qed.

(** The end points of a circle are determined. *)
Lemma sorted_same (P : R * R -> R * R -> Prop) :
  (forall x, ~ P x x) -> (forall x y, P x y -> ~ P y x) ->
  forall l l', StronglySorted P l -> StronglySorted P l' ->
  (forall x, In x l <-> In x l') -> l = l'.
Proof.
  intros NR AS. induction l as [|a l IH]; intros [|b l'] A B E; auto.
  - destruct (proj2 (E b)); left; auto.
  - destruct (proj1 (E a)); left; auto.
  - apply StronglySorted_inv in A as (A & FA), B as (B & FB).
    rewrite Forall_forall in FA, FB.
    assert (a = b).
    { destruct (proj1 (E a) (or_introl eq_refl)) as [|I]; auto.
      destruct (proj2 (E b) (or_introl eq_refl)) as [|J]; auto.
      exfalso. exact (AS _ _ (FA _ J) (FB _ I)). }
    subst b. f_equal. apply IH; auto. intros x. split; intros I.
    + destruct (proj1 (E x) (or_intror I)); auto. subst x. exfalso. exact (NR _ (FA _ I)).
    + destruct (proj2 (E x) (or_intror I)); auto. subst x. exfalso. exact (NR _ (FB _ I)).
Qed.
Lemma crossings_det g cx cy r l l' : crossings g cx cy r l -> crossings g cx cy r l' -> l = l'.
Proof.
  intros (S1 & E1) (S2 & E2). eapply sorted_same; eauto; cbn; intros.
  - lra.
  - lra.
  - rewrite E1, E2. tauto.
Qed.
Lemma end_points_det g cx cy r a b a' b' :
  end_points g cx cy r a b -> end_points g cx cy r a' b' -> a' = a /\ b' = b.
Proof.
  intros (l & C) (l' & C'). pose proof (crossings_det _ _ _ _ _ _ C C') as E. split; congruence.
Qed.
Lemma end_points_two g cx cy r a b l : end_points g cx cy r a b ->
  crossings g cx cy r l -> (List.length l <= 1)%nat -> False.
Proof.
  intros (l0 & C) C' L. rewrite (crossings_det _ _ _ _ _ _ C' C) in L. cbn in L. lia.
Qed.

(** The slices are determined by their description. *)
Lemma soil_weight_det L w yb yt W W' : L <> [] -> yb <= yt ->
  soil_weight L w yb yt W -> soil_weight L w yb yt W' -> W = W'.
Proof.
  intros NE Y (u & pr & U & ->) (u' & pr' & U' & ->). f_equal.
  apply RiemannInt_P18; auto. intros x _. now apply (unit_weight_unique L).
Qed.
Lemma slice_det v cx cy r xl w i s s' :
  slice_ok v cx cy r xl w i s -> slice_ok v cx cy r xl w i s' -> s = s'.
Proof.
  intros [X YB YT D C S (W & SW & EW) (m & LM & EC & ET) U]
         [X' YB' YT' D' C' S' (W' & SW' & EW') (m' & LM' & EC' & ET') U'].
  destruct s as [x yt yb co si we c ta u], s' as [x' yt' yb' co' si' we' c' ta' u'].
  cbn [sl_x sl_yt sl_yb sl_cos sl_sin sl_W sl_c sl_tan sl_u] in *.
  rewrite <- YB in YB'. rewrite YB' in *. rewrite <- YT in YT'. rewrite YT' in *. clear YB' YT'.
  pose proof (layer_at_unique _ _ _ _ LM LM') as <-.
  assert (W = W').
  { apply (soil_weight_det (v_mats v) w yb yt); auto.
    - destruct LM as (a & rl & b & -> & _). now destruct a.
    - rewrite YT. apply Rmax_r. }
  subst W'. f_equal; congruence.
Qed.
Lemma slices_det v cx cy r a b sl sl' :
  slices_ok v cx cy r a b sl -> slices_ok v cx cy r a b sl' -> sl = sl'.
Proof.
  unfold slices_ok. generalize (zrange 0 (Z.to_nat (v_slices v))) as l. intros l A. revert sl'.
  induction A as [|i s l sl A1 A IH]; intros sl' B; inversion B; subst; auto. f_equal; auto.
  eapply slice_det; eauto.
Qed.
Lemma slices_mats v cx cy r a b sl : (2 <= v_slices v)%Z ->
  slices_ok v cx cy r a b sl -> v_mats v <> [].
Proof.
  intros N A M. unfold slices_ok in A.
  destruct (Z.to_nat (v_slices v)) as [|n] eqn:E; [lia|]. cbn [zrange] in A. inversion A; subst.
  destruct (sk_mat _ _ _ _ _ _ _ _ H1) as (m & (ab & rl & be & Q & _) & _). rewrite M in Q.
  now destruct ab.
Qed.

Section Circle.
  Context (v : view R) (GV : good_view v).
  Context (cx cy r : R).

  Lemma radius_pos a b : 0 <= r -> end_points (v_geom v) cx cy r a b -> 0 < r.
  Proof.
    intros H E. apply end_points_ok in E as (A & _ & B & _ & L); [|apply GV].
    destruct H as [H|<-]; auto. exfalso. unfold on_circle in A, B.
    assert (Z : forall x y : R, x * x + y * y = 0 * 0 -> x = 0).
    { intros x y Q. apply (Rplus_sqr_eq_0_l x y). unfold Rsqr. lra. }
    apply Z in A, B. lra.
  Qed.

  Lemma slices_at a b o : 0 < r -> end_points (v_geom v) cx cy r a b ->
    water_data v = Ok o ->
    (v_mats v = [] /\ slices_of v cx cy r (fst a) (fst b) = Ok None) \/
    (exists sl, slices_of v cx cy r (fst a) (fst b) = Ok (Some (width v a b, sl)) /\
       slices_ok v cx cy r a b sl).
  Proof.
    intros H E W. pose proof (end_points_ok _ (gv_geom v GV) _ _ _ _ _ E) as (A & GA & B & GB & L).
    destruct (nil_or (v_mats v)) as [M|M].
    - left. split; auto. unfold slices_of.
      destruct (nleb _ _); auto. destruct (pydiv _ _) as [q|e] eqn:EP; cbn [rbind].
      2:{ exfalso. unfold pydiv in EP. unR. destruct (Reqb _ 0) eqn:E0; [|discriminate]. rbool.
          apply eq_IZR in E0. pose proof (gv_slices v GV). lia. }
      destruct (existsb _ _); auto. destruct (existsb _ _); auto. rewrite W. cbn [rbind].
      now rewrite M.
    - right. apply (slices_spec v (gv_geom v GV) (gv_desc v GV) (gv_slices v GV) M cx cy r H a b A B GA GB L o W).
  Qed.

  Lemma ordinary_spec a b : 0 <= cx -> 0 <= cy -> 0 <= r ->
    end_points (v_geom v) cx cy r a b -> water_fits v ->
    (v_mats v = [] /\ ordinary v cx cy r a b = Ok None) \/
    (exists sl, slices_ok v cx cy r a b sl /\
       ((driving sl <= 0 /\ ordinary v cx cy r a b = Ok None) \/
        (0 < driving sl /\
         ordinary v cx cy r a b = Ok (Some (resisting (width v a b) sl / driving sl))))).
  Proof.
    intros H1 H2 H3 E W. pose proof (radius_pos a b H3 E) as HR.
    destruct (water_total v (gv_geom v GV) W) as (o & WD).
    unfold ordinary. rewrite !assert_pos. rewrite !(proj2 (Rltb_false _ 0)) by auto. cbn [rbind].
    destruct (slices_at a b o HR E WD) as [(M & ->)|(sl & -> & S)]; cbn [rbind]; auto.
    right. exists sl. split; auto. rewrite ordinary_fos_R. destruct (Rle_dec (driving sl) 0); auto.
    right. split; auto. lra.
  Qed.

  Definition fos_of (a b : R * R) (sl : list (slice R)) : res (option R) :=
    bishop_loop (width v a b) (v_tolerance v) sl (Z.to_nat (v_max_iterations v))
                (resisting (width v a b) sl / driving sl).
  Lemma bishop_at o : 0 <= cx -> 0 <= cy -> 0 <= r -> water_data v = Ok o ->
    (exists l, crossings (v_geom v) cx cy r l /\ (List.length l <= 1)%nat /\
       bishop v cx cy r = Ok None) \/
    (exists a b, end_points (v_geom v) cx cy r a b /\
       ((v_mats v = [] /\ bishop v cx cy r = Ok None) \/
        (exists sl, slices_ok v cx cy r a b sl /\
           ((driving sl <= 0 /\ bishop v cx cy r = Ok None) \/
            (0 < driving sl /\ bishop v cx cy r = fos_of a b sl))))).
  Proof.
    intros H1 H2 H3 WD.
    destruct (circle_external_spec (v_geom v) (gv_geom v GV) cx cy r) as (l & E & C).
    destruct (first_two_spec (v_geom v) cx cy r l C) as [(a & b & F & EP)|(F & L)].
    2:{ left. exists l. split; auto. split; auto. unfold bishop. rewrite E. cbn [rbind]. now rewrite F. }
    right. exists a, b. split; auto. pose proof (radius_pos a b H3 EP) as HR.
    unfold bishop. rewrite E. cbn [rbind]. rewrite F.
    unfold ordinary. rewrite !assert_pos. rewrite !(proj2 (Rltb_false _ 0)) by auto. cbn [rbind].
    destruct (slices_at a b o HR EP WD) as [(M & ->)|(sl & -> & S)]; cbn [rbind]; auto.
    right. exists sl. split; auto. rewrite ordinary_fos_R.
    destruct (Rle_dec (driving sl) 0); cbn [rbind]; auto. right. split; auto. lra.
  Qed.

  Lemma water_data_err e : water_data v = Err e -> e = TypeError /\ ~ water_fits v.
  Proof.
    intros E. split.
    - unfold water_data in E. destruct (water_level v) as [rl|]; [|discriminate].
      destruct (external_x (v_geom v) rl) as [[x|]|e'] eqn:EX; cbn [rbind] in E; try congruence.
      exfalso. unfold external_x, pydiv in EX. unR. pose proof (gv_geom v GV) as G.
      destruct (Rltb rl (snd (g_bot (v_geom v)))) eqn:E1; rbool; [discriminate|].
      destruct (Rltb rl (g_ext_h (v_geom v))) eqn:E2; rbool.
      + pose proof (grad_pos v G) as P. pose proof (gg_crest _ G). cbv zeta in P.
        rewrite (proj2 (Reqb_false (g_gradient (v_geom v)) 0)) in EX; [discriminate|].
        apply Rgt_not_eq, P. lra.
      + destruct (Reqb rl (snd (g_bot (v_geom v)))); [discriminate|].
        destruct (Reqb rl (snd (g_top (v_geom v)))); discriminate.
    - intros W. destruct (water_total v (gv_geom v GV) W) as (o & Q). congruence.
  Qed.

  (** The only ways to raise *)
  Lemma bishop_err e : bishop v cx cy r = Err e ->
    (e = ValueError /\ (cx < 0 \/ cy < 0 \/ r < 0)) \/
    (e = TypeError /\ ~ water_fits v) \/ e = NanProduced.
  Proof.
    intros E.
    assert (D : (cx < 0 \/ cy < 0 \/ r < 0) \/ (0 <= cx /\ 0 <= cy /\ 0 <= r)).
    { destruct (Rlt_le_dec cx 0); auto. destruct (Rlt_le_dec cy 0); auto.
      destruct (Rlt_le_dec r 0); auto. }
    destruct D as [D|(D1 & D2 & D3)].
    - left. split; auto. unfold bishop in E.
      destruct (circle_external_spec (v_geom v) (gv_geom v GV) cx cy r) as (l & EE & C).
      rewrite EE in E. cbn [rbind] in E. destruct (first_two l) as [[a b]|]; [|discriminate].
      unfold ordinary in E. rewrite !assert_pos in E.
      destruct (Rltb cx 0) eqn:X1; rbool; cbn [rbind] in E; [congruence|].
      destruct (Rltb cy 0) eqn:X2; rbool; cbn [rbind] in E; [congruence|].
      destruct (Rltb r 0) eqn:X3; rbool; cbn [rbind] in E; [congruence|]. lra.
    - right. destruct (water_data v) as [o|e'] eqn:WD.
      + right. destruct (bishop_at o D1 D2 D3 WD) as
          [(l & _ & _ & Q)|(a & b & _ & [(_ & Q)|(sl & _ & [(_ & Q)|(_ & Q)])])];
          rewrite Q in E; try discriminate. apply loop_err in E. auto.
      + left. destruct (water_data_err e' WD) as (-> & W). split; auto.
        unfold bishop in E.
        destruct (circle_external (v_geom v) cx cy r) as [l|e''] eqn:EE; cbn [rbind] in E.
        2:{ destruct (circle_external_spec (v_geom v) (gv_geom v GV) cx cy r) as (l & EE' & _). congruence. }
        destruct (first_two l) as [[a b]|]; [|discriminate].
        destruct (ordinary v cx cy r a b) as [[f|]|e2] eqn:EO; cbn [rbind] in E.
        * unfold ordinary in EO. rewrite !assert_pos, !(proj2 (Rltb_false _ 0)) in EO by auto.
          cbn [rbind] in EO. destruct (slices_of _ _ _ _ _ _) as [[[b' sl]|]|] eqn:ES; try discriminate.
          exfalso. revert ES. unfold slices_of. destruct (nleb _ _); [discriminate|].
          destruct (pydiv _ _); cbn [rbind]; [|discriminate].
          destruct (existsb _ _); [discriminate|]. destruct (existsb _ _); [discriminate|].
          rewrite WD. discriminate.
        * discriminate.
        * injection E as ->. unfold ordinary in EO. rewrite !assert_pos, !(proj2 (Rltb_false _ 0)) in EO by auto.
          cbn [rbind] in EO. destruct (slices_of _ _ _ _ _ _) as [[[b' sl]|]|e3] eqn:ES; try discriminate.
          injection EO as <-. revert ES. unfold slices_of. destruct (nleb _ _); [discriminate|].
          destruct (pydiv _ _) as [q|e4] eqn:EP; cbn [rbind].
          -- destruct (existsb _ _); [discriminate|]. destruct (existsb _ _); [discriminate|].
             rewrite WD. cbn. congruence.
          -- exfalso. unfold pydiv in EP. unR. destruct (Reqb _ 0) eqn:E0; [|discriminate]. rbool.
             apply eq_IZR in E0. pose proof (gv_slices v GV). lia.
  Qed.

  (** What is known about a circle that gets a factor *)
  Lemma bishop_some f : bishop v cx cy r = Ok (Some f) ->
    0 <= cx /\ 0 <= cy /\ 0 < r /\
    exists a b sl, end_points (v_geom v) cx cy r a b /\ slices_ok v cx cy r a b sl /\
      0 < driving sl /\
      reported (width v a b) (v_tolerance v) sl (Z.to_nat (v_max_iterations v))
               (resisting (width v a b) sl / driving sl) f.
  Proof.
    intros E.
    assert (D : 0 <= cx /\ 0 <= cy /\ 0 <= r /\ exists o, water_data v = Ok o).
    { unfold bishop in E. destruct (circle_external _ _ _ _) as [l|]; [|discriminate].
      cbn [rbind] in E. destruct (first_two l) as [[a b]|]; [|discriminate].
      unfold ordinary in E. rewrite !assert_pos in E.
      destruct (Rltb cx 0) eqn:X1; rbool; cbn [rbind] in E; [congruence|].
      destruct (Rltb cy 0) eqn:X2; rbool; cbn [rbind] in E; [congruence|].
      destruct (Rltb r 0) eqn:X3; rbool; cbn [rbind] in E; [congruence|].
      do 3 (split; auto). destruct (water_data v) as [o|e'] eqn:WD; eauto. exfalso.
      destruct (slices_of _ _ _ _ _ _) as [[[b' sl]|]|e3] eqn:ES; try discriminate.
      revert ES. unfold slices_of. destruct (nleb _ _); [discriminate|].
      destruct (pydiv _ _); cbn [rbind]; [|discriminate].
      destruct (existsb _ _); [discriminate|]. destruct (existsb _ _); [discriminate|].
      rewrite WD. discriminate. }
    destruct D as (D1 & D2 & D3 & o & WD). split; auto. split; auto.
    destruct (bishop_at o D1 D2 D3 WD) as
      [(l & _ & _ & Q)|(a & b & EP & [(_ & Q)|(sl & SO & [(_ & Q)|(DR & Q)])])];
      rewrite Q in E; try discriminate.
    split; [eapply radius_pos; eauto|]. exists a, b, sl. split; auto. split; auto. split; auto.
    now apply loop_some.
  Qed.

  (** and the converse *)
  Lemma bishop_value a b sl f : 0 <= cx -> 0 <= cy -> 0 <= r -> water_fits v ->
    end_points (v_geom v) cx cy r a b -> slices_ok v cx cy r a b sl -> 0 < driving sl ->
    reported (width v a b) (v_tolerance v) sl (Z.to_nat (v_max_iterations v))
             (resisting (width v a b) sl / driving sl) f ->
    bishop v cx cy r = Ok (Some f).
  Proof.
    intros D1 D2 D3 W EP SO DR RP.
    destruct (water_total v (gv_geom v GV) W) as (o & WD).
    destruct (bishop_at o D1 D2 D3 WD) as
      [(l & C & L & _)|(a' & b' & EP' & [(M & _)|(sl' & SO' & [(DR' & _)|(_ & Q)])])].
    - exfalso. eapply end_points_two; eauto.
    - exfalso. apply (slices_mats _ _ _ _ _ _ _ (gv_slices v GV) SO M).
    - destruct (end_points_det _ _ _ _ _ _ _ _ EP EP') as (-> & ->).
      rewrite (slices_det _ _ _ _ _ _ _ _ SO SO') in DR. lra.
    - destruct (end_points_det _ _ _ _ _ _ _ _ EP EP') as (-> & ->).
      rewrite Q. unfold fos_of. rewrite <- (slices_det _ _ _ _ _ _ _ _ SO SO'). now apply loop_some.
  Qed.
End Circle.
