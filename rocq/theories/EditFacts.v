(** * EditFacts: proofs about constructors, geometry, limits (C01-C11). *)
From Coq Require Import ZArith Reals Lra Lia List Bool String Permutation Sorted.
From Verif Require Import Num Py Validation Utilities Objects Slope Planes Analysis
     Dynamic Api RealNum RealFacts ListFacts MonadFacts SlopeFacts MaterialFacts Invariant
     History Spec.
Import ListNotations.
Local Open Scope R_scope.

(** ** Values *)
Lemma denotes_as_num v x : denotes v x <-> as_num v = Ok x.
Proof.
  destruct v as [|[]|z|t|s]; cbn; unR; split; intros H; try discriminate;
    try contradiction; try congruence; subst; try reflexivity; now injection H.
Qed.
Lemma denotes_isinstance v x : denotes v x -> isinstance_num v = true.
Proof. destruct v; cbn; auto; contradiction. Qed.
Lemma denotes_fun v x y : denotes v x -> denotes v y -> x = y.
Proof. rewrite !denotes_as_num. congruence. Qed.
Lemma plain_type v : plain_number v <-> type_num v = true.
Proof. destruct v; cbn; split; auto; try discriminate; contradiction. Qed.
Lemma assert_number_ok v u : assert_number v = Ok u <-> plain_number v.
Proof.
  unfold assert_number. rewrite plain_type. destruct u.
  destruct (type_num v); cbn; split; auto; discriminate.
Qed.
Lemma plain_denotes_ex v : plain_number v -> exists x, denotes v x.
Proof. destruct v; cbn; try contradiction; eauto. Qed.
Lemma assert_positive_ok v u :
  assert_positive_number v = Ok u <-> exists x, denotes v x /\ 0 <= x.
Proof.
  unfold assert_positive_number. destruct u. split.
  - destruct (isinstance_num v) eqn:E; cbn; [|discriminate].
    destruct (as_num v) as [x|] eqn:A; cbn; [|discriminate]. unR.
    destruct (Rltb x 0) eqn:L; [discriminate|]. rbool. intros _.
    exists x. split; auto. now apply denotes_as_num.
  - intros (x & D & P). rewrite (denotes_isinstance v x D).
    apply denotes_as_num in D. rewrite D. cbn. unR.
    rewrite (proj2 (Rltb_false x 0)) by lra. reflexivity.
Qed.
Lemma assert_strict_ok v u :
  assert_strictly_positive_number v = Ok u <-> exists x, denotes v x /\ 0 <= x.
Proof. exact (assert_positive_ok v u). Qed.
Lemma assert_positive_err v :
  (forall x, denotes v x -> x < 0) -> assert_positive_number v = Err ValueError.
Proof.
  intros H. unfold assert_positive_number.
  destruct v as [|[]|z|t|s]; cbn [isinstance_num negb as_num rbind]; auto; unR;
    try (specialize (H _ eq_refl); cbn in H);
    match goal with |- context [Rltb ?x 0] => destruct (Rltb x 0) eqn:E end; auto; rbool; lra.
Qed.
Lemma text_arg_ok v t : text_arg v = Ok t <-> is_text v t.
Proof.
  destruct v; cbn; split; intros H; try discriminate; try contradiction; subst; auto;
    now injection H.
Qed.
Lemma falsy_truthy v : falsy v <-> truthy v = false.
Proof.
  unfold falsy. destruct v as [|[]|z|t|s]; cbn; split; auto;
    try (intros [H|[H|H]]; try discriminate; lra); try discriminate.
  - intros [H|[H|H]]; try discriminate.
    rewrite negb_false_iff, Z.eqb_eq. apply eq_IZR. lra.
  - rewrite negb_false_iff, Z.eqb_eq. intros ->. auto.
  - intros [H|[H|H]]; try discriminate. subst. unR. rewrite Reqb_refl. reflexivity.
  - unR. rewrite negb_false_iff, Reqb_true. intros ->. auto.
  - intros [H|[H|H]]; try discriminate; try contradiction. injection H as ->. reflexivity.
  - rewrite negb_false_iff, String.eqb_eq. intros ->. auto.
Qed.
Lemma assert_range_incl v a b u :
  assert_range v a b false false = Ok u <-> exists x, denotes v x /\ a <= x <= b.
Proof.
  destruct u. unfold assert_range. split.
  - destruct (isinstance_num v); cbn [negb]; [|discriminate].
    destruct (as_num v) as [x|] eqn:A; cbn [rbind]; [|discriminate]. unR.
    destruct (Rltb x a) eqn:L1; [discriminate|].
    destruct (Rltb b x) eqn:L2; [discriminate|]. rbool. intros _.
    exists x. split; [now apply denotes_as_num | lra].
  - intros (x & D & P). rewrite (denotes_isinstance v x D).
    apply denotes_as_num in D. rewrite D. cbn [negb rbind andb]. unR.
    rewrite (proj2 (Rltb_false x a)), (proj2 (Rltb_false b x)) by lra. reflexivity.
Qed.

(** ** C01, C02 *)
Lemma material_spec (EN : Env) uw phi c d name col m :
  new_material uw phi c d name col = Ok m <->
  exists u p cc dd nm cl,
    denotes uw u /\ 1 <= u <= 50 /\ denotes phi p /\ 0 <= p /\
    plain_denotes c cc /\ plain_denotes d dd /\ is_text name nm /\ is_text col cl /\
    m = MkMaterial u p (Rabs cc) (Rabs dd) nm cl cl (Rtan_py (p * (PI / 180))) None.
Proof.
  unfold new_material. split.
  - destruct (assert_range uw _ _ _ _) eqn:E1; cbn [rbind]; [|discriminate].
    destruct (assert_positive_number phi) eqn:E2; cbn [rbind]; [|discriminate].
    destruct (assert_number c) eqn:E3; cbn [rbind]; [|discriminate].
    destruct (assert_number d) eqn:E4; cbn [rbind]; [|discriminate].
    apply assert_range_incl in E1. destruct E1 as (u & Du & Pu).
    apply assert_positive_ok in E2. destruct E2 as (p & Dp & Pp).
    apply assert_number_ok in E3, E4.
    destruct (plain_denotes_ex _ E3) as (cc & Dc). destruct (plain_denotes_ex _ E4) as (dd & Dd).
    rewrite (proj1 (denotes_as_num _ _) Du), (proj1 (denotes_as_num _ _) Dp),
      (proj1 (denotes_as_num _ _) Dc), (proj1 (denotes_as_num _ _) Dd). cbn [rbind].
    destruct (text_arg name) as [nm|] eqn:E5; cbn [rbind]; [|discriminate].
    destruct (text_arg col) as [cl|] eqn:E6; cbn [rbind]; [|discriminate].
    intros H. injection H as <-. apply text_arg_ok in E5, E6.
    unR. exists u, p, cc, dd, nm, cl. unfold plain_denotes. repeat split; auto; try lra.
    unfold nradians. unR. reflexivity.
  - intros (u & p & cc & dd & nm & cl & Du & Pu & Dp & Pp & [Qc Dc] & [Qd Dd] & Tn & Tc & ->).
    rewrite (proj2 (assert_range_incl uw (nz 1) (nz 50) tt)) by (unR; eauto). cbn [rbind].
    rewrite (proj2 (assert_positive_ok phi tt)) by eauto. cbn [rbind].
    rewrite (proj2 (assert_number_ok c tt)) by auto. cbn [rbind].
    rewrite (proj2 (assert_number_ok d tt)) by auto. cbn [rbind].
    rewrite (proj1 (denotes_as_num _ _) Du), (proj1 (denotes_as_num _ _) Dp),
      (proj1 (denotes_as_num _ _) Dc), (proj1 (denotes_as_num _ _) Dd). cbn [rbind].
    rewrite (proj2 (text_arg_ok _ _) Tn), (proj2 (text_arg_ok _ _) Tc). cbn [rbind].
    unfold nradians. unR. reflexivity.
Qed.

Lemma udl_spec (EN : Env) mag off len col dyn u :
  new_udl mag off len col dyn = Ok u <->
  exists m o l,
    plain_denotes mag m /\ plain_denotes off o /\
    ((falsy len /\ l = None) \/
     (exists x, plain_denotes len x /\ x <> 0 /\ l = Some (Rabs x))) /\
    u = MkUdl (Rabs m) (Rabs o) l (if is_color col then col else "red"%string) dyn None None.
Proof.
  unfold new_udl. split.
  - destruct (assert_number mag) eqn:E1; cbn [rbind]; [|discriminate].
    destruct (assert_number off) eqn:E2; cbn [rbind]; [|discriminate].
    apply assert_number_ok in E1, E2.
    destruct (plain_denotes_ex _ E1) as (m & Dm). destruct (plain_denotes_ex _ E2) as (o & Do).
    rewrite (proj1 (denotes_as_num _ _) Dm), (proj1 (denotes_as_num _ _) Do).
    destruct (truthy len) eqn:Et.
    + destruct (assert_number len) eqn:E3; cbn [rbind]; [|discriminate].
      apply assert_number_ok in E3. destruct (plain_denotes_ex _ E3) as (x & Dx).
      rewrite (proj1 (denotes_as_num _ _) Dx). cbn [rbind]. intros H; injection H as <-. unR.
      exists m, o, (Some (Rabs x)). unfold plain_denotes. repeat split; auto.
      right. exists x. repeat split; auto. intros ->.
      assert (falsy len) as F by (unfold falsy; auto). apply falsy_truthy in F. congruence.
    + cbn [rbind]. intros H; injection H as <-. unR.
      exists m, o, None. unfold plain_denotes. repeat split; auto.
      left. split; auto. now apply falsy_truthy.
  - intros (m & o & l & [Pm Dm] & [Po Do] & L & ->).
    rewrite (proj2 (assert_number_ok mag tt)) by auto. cbn [rbind].
    rewrite (proj2 (assert_number_ok off tt)) by auto. cbn [rbind].
    rewrite (proj1 (denotes_as_num _ _) Dm), (proj1 (denotes_as_num _ _) Do).
    destruct L as [[F ->]|(x & [Px Dx] & Nx & ->)].
    + rewrite (proj1 (falsy_truthy _) F). cbn [rbind]. unR. reflexivity.
    + assert (truthy len = true) as ->.
      { destruct (truthy len) eqn:E; auto. apply falsy_truthy in E.
        destruct E as [->|[->|D]]; try contradiction. elim Nx. eapply denotes_fun; eauto. }
      rewrite (proj2 (assert_number_ok len tt)) by auto. cbn [rbind].
      rewrite (proj1 (denotes_as_num _ _) Dx). cbn [rbind]. unR. reflexivity.
Qed.

Lemma lload_spec (EN : Env) mag off col dyn u :
  new_lload mag off col dyn = Ok u <->
  exists m o,
    plain_denotes mag m /\ plain_denotes off o /\
    u = MkLload (Rabs m) (Rabs o) (if is_color col then col else "blue"%string) dyn None.
Proof.
  unfold new_lload. split.
  - destruct (assert_number mag) eqn:E1; cbn [rbind]; [|discriminate].
    destruct (assert_number off) eqn:E2; cbn [rbind]; [|discriminate].
    apply assert_number_ok in E1, E2.
    destruct (plain_denotes_ex _ E1) as (m & Dm). destruct (plain_denotes_ex _ E2) as (o & Do).
    rewrite (proj1 (denotes_as_num _ _) Dm), (proj1 (denotes_as_num _ _) Do).
    cbn [rbind]. intros H; injection H as <-. unR.
    exists m, o. unfold plain_denotes. repeat split; auto.
  - intros (m & o & [Pm Dm] & [Po Do] & ->).
    rewrite (proj2 (assert_number_ok mag tt)) by auto. cbn [rbind].
    rewrite (proj2 (assert_number_ok off tt)) by auto. cbn [rbind].
    rewrite (proj1 (denotes_as_num _ _) Dm), (proj1 (denotes_as_num _ _) Do).
    cbn [rbind]. unR. rewrite ?pymax_R. reflexivity.
Qed.

(** ** C04 *)
Lemma geom_of_section h l mh ml : cross_section h l mh ml (geom_of h l mh ml).
Proof.
  unfold geom_of. constructor; cbn; try reflexivity.
  - rewrite <- !Rmax_assoc. f_equal.
    rewrite (Rmax_comm mh). f_equal. lra.
  - rewrite <- !Rmax_assoc. f_equal. apply Rmax_comm.
Qed.
Lemma section_unique h l mh ml g g' :
  cross_section h l mh ml g -> cross_section h l mh ml g' -> g = g'.
Proof.
  intros [] []. destruct g as [? ? ? [? ?] [? ?] ? ?], g' as [? ? ? [? ?] [? ?] ? ?].
  cbn in *. subst. reflexivity.
Qed.

Lemma Rmax_ge3 a b c : a <= Rmax (Rmax a b) c /\ b <= Rmax (Rmax a b) c /\ c <= Rmax (Rmax a b) c.
Proof. rminmax; lra. Qed.

Lemma reachable_section (EN : Env) (s : st R) :
  reachable s ->
  exists h l mh,
    0 <= h /\ 1 / 1000 <= l /\ 0 < mh /\
    cross_section h l mh (s_min_ext_l (snd s)) (s_geom (snd s)).
Proof.
  intros Hr. destruct (reachable_inv s Hr) as (C & _ & _).
  destruct (c_geom _ C) as (mh & Hm & E).
  exists (g_height (s_geom (snd s))), (g_length (s_geom (snd s))), mh.
  split; [apply (c_h _ C)|]. split; [apply (c_l _ C)|]. split; auto.
  rewrite E at 3. apply geom_of_section.
Qed.

Lemma section_facts h l mh ml g :
  0 <= h -> 1 / 1000 <= l -> cross_section h l mh ml g ->
  fst (g_bot g) = fst (g_top g) + g_length g /\
  snd (g_bot g) = snd (g_top g) - g_height g /\
  g_ext_l g - fst (g_bot g) = fst (g_top g) /\
  0 < fst (g_top g) < fst (g_bot g) /\ fst (g_bot g) < g_ext_l g /\
  0 <= snd (g_bot g) <= snd (g_top g) /\ snd (g_top g) = g_ext_h g /\
  5 * g_length g <= g_ext_l g /\ 4 * g_height g <= g_ext_l g /\ ml <= g_ext_l g /\
  3 * g_height g <= g_ext_h g /\ 5 / 2 * g_length g <= g_ext_h g /\ mh <= g_ext_h g /\
  g_gradient g = g_height g / g_length g.
Proof.
  intros Hh Hl [cs_height0 cs_length0 cs_gradient0 cs_ext_h0 cs_ext_l0 cs_top_x0 cs_top_y0
    cs_bot_x0 cs_bot_y0]. rewrite cs_height0, cs_length0.
  pose proof (Rmax_ge3 (3 * h) (5 / 2 * l) mh) as (A1 & A2 & A3).
  pose proof (Rmax_ge3 (5 * l) (4 * h) ml) as (B1 & B2 & B3).
  rewrite <- cs_ext_h0 in A1, A2, A3. rewrite <- cs_ext_l0 in B1, B2, B3.
  repeat split; auto; try lra.
Qed.

(** ** C05 *)
Lemma boundary_inputs_angle height angle h a :
  denotes height h -> 0 <= h -> denotes angle a -> 0 < a <= 90 ->
  Rtan_py (a * (PI / 180)) <> 0 ->
  boundary_inputs height angle PNone =
  Ok (h, Rmax (h / Rtan_py (a * (PI / 180))) (1 / 1000)).
Proof.
  intros Dh Ph Da Pa Nt. unfold boundary_inputs.
  assert (is_none height = false) as -> by (destruct height; cbn in *; auto; contradiction).
  assert (is_none angle = false) as -> by (destruct angle; cbn in *; auto; contradiction).
  rewrite (proj2 (assert_strict_ok height tt)) by eauto. cbn [rbind is_none].
  assert (assert_range angle (nz 0) (nz 90) true false = Ok tt) as ->.
  { unfold assert_range. rewrite (denotes_isinstance _ _ Da).
    rewrite (proj1 (denotes_as_num _ _) Da). cbn [negb rbind andb]. unR.
    rewrite (proj2 (Rltb_false a 0)), (proj2 (Rltb_false 90 a)),
      (proj2 (Reqb_false a 0)) by lra. reflexivity. }
  cbn [rbind].
  assert (truthy angle = true) as ->.
  { destruct (truthy angle) eqn:E; auto. apply falsy_truthy in E.
    destruct E as [->|[->|D]]; try contradiction.
    rewrite (denotes_fun _ _ _ Da D) in Pa. lra. }
  cbn [negb]. rewrite (proj1 (denotes_as_num _ _) Da), (proj1 (denotes_as_num _ _) Dh).
  cbn [rbind]. unfold pydiv, nradians. unR.
  rewrite (proj2 (Reqb_false _ _) Nt). cbn [rbind]. unR. reflexivity.
Qed.
Lemma boundary_inputs_length height angle length h a l :
  denotes height h -> 0 <= h -> (angle = PNone \/ denotes angle a /\ 0 < a <= 90) ->
  denotes length l -> 0 <= l ->
  boundary_inputs height angle length = Ok (h, Rmax l (1 / 1000)).
Proof.
  intros Dh Ph Da Dl Pl. unfold boundary_inputs.
  assert (is_none height = false) as -> by (destruct height; cbn in *; auto; contradiction).
  assert (is_none length = false) as -> by (destruct length; cbn in *; auto; contradiction).
  rewrite (proj2 (assert_strict_ok height tt)) by eauto. cbn [rbind].
  assert ((if is_none angle then Ok tt else assert_range angle (nz 0) (nz 90) true false)
          = Ok tt) as ->.
  { destruct Da as [->|[Da Pa]]; [reflexivity|].
    assert (is_none angle = false) as -> by (destruct angle; cbn in *; auto; contradiction).
    unfold assert_range. rewrite (denotes_isinstance _ _ Da).
    rewrite (proj1 (denotes_as_num _ _) Da). cbn [negb rbind andb]. unR.
    rewrite (proj2 (Rltb_false a 0)), (proj2 (Rltb_false 90 a)),
      (proj2 (Reqb_false a 0)) by lra. reflexivity. }
  cbn [rbind]. rewrite (proj2 (assert_positive_ok length tt)) by eauto. cbn [rbind].
  rewrite (proj1 (denotes_as_num _ _) Dl), (proj1 (denotes_as_num _ _) Dh).
  cbn [rbind]. unR. rewrite ?pymax_R. reflexivity.
Qed.

Lemma deg_bounds a : 0 < a < 90 -> 0 < a * (PI / 180) < PI / 2.
Proof. intros H. pose proof PI_RGT_0. nra. Qed.
Lemma Rtan_py_tan x : cos x <> 0 -> Rtan_py x = tan x.
Proof. intros H. unfold Rtan_py, tan. destruct (Req_EM_T (cos x) 0); [contradiction|reflexivity]. Qed.
Lemma Rtan_py_acute a : 0 < a < 90 ->
  Rtan_py (a * (PI / 180)) = tan (a * (PI / 180)) /\ 0 < tan (a * (PI / 180)).
Proof.
  intros H. apply deg_bounds in H. split.
  - apply Rtan_py_tan. apply Rgt_not_eq, cos_gt_0; lra.
  - apply tan_gt_0; lra.
Qed.
Lemma Rtan_py_90 : Rtan_py (90 * (PI / 180)) = 16331239353195370.
Proof.
  unfold Rtan_py. destruct (Req_EM_T (cos (90 * (PI / 180))) 0) as [|N]; auto.
  exfalso. apply N. replace (90 * (PI / 180)) with (PI / 2) by lra. apply cos_PI2.
Qed.

Section C05.
  Context {EN : Env}.
  Lemma angle_as_length hp height angle angle' h a a' :
    denotes height h -> 0 <= h -> denotes angle a -> 0 < a < 90 ->
    (angle' = PNone \/ denotes angle' a' /\ 0 < a' <= 90) ->
    new_slope hp height angle PNone =
    new_slope hp height angle' (PFloat (h / tan (a * (PI / 180)))).
  Proof.
    intros Dh Ph Da Pa Da'. destruct (Rtan_py_acute a Pa) as [E P].
    rewrite !init_eff.
    rewrite (boundary_inputs_angle height angle h a) by (auto; lra).
    rewrite (boundary_inputs_length height angle' _ h a' (h / tan (a * (PI / 180)))); auto.
    - now rewrite E.
    - cbn. reflexivity.
    - apply Rmult_le_pos; auto. left. now apply Rinv_0_lt_compat.
  Qed.
  Lemma angle_gradient hp height angle h a s :
    denotes height h -> 0 < h -> denotes angle a -> 0 < a < 90 ->
    new_slope hp height angle PNone = Ok s ->
    1 / 1000 <= h / tan (a * (PI / 180)) ->
    g_length (s_geom (snd s)) = h / tan (a * (PI / 180)) /\
    g_gradient (s_geom (snd s)) = tan (a * (PI / 180)) /\
    atan (g_gradient (s_geom (snd s))) = a * (PI / 180).
  Proof.
    intros Dh Ph Da Pa E Hl. destruct (Rtan_py_acute a Pa) as [Et P].
    rewrite init_eff, (boundary_inputs_angle height angle h a) in E by (auto; lra).
    injection E as <-. rewrite Et, Rmax_left by lra. cbn.
    assert (G : h / (h / tan (a * (PI / 180))) = tan (a * (PI / 180))) by (field; lra).
    rewrite G. repeat split; auto. apply atan_tan.
    pose proof (deg_bounds a Pa). lra.
  Qed.
  Lemma angle_90 hp height angle h s :
    denotes height h -> 0 <= h <= 10 ^ 13 -> denotes angle 90 ->
    new_slope hp height angle PNone = Ok s ->
    g_length (s_geom (snd s)) = 1 / 1000.
  Proof.
    intros Dh Ph Da E.
    rewrite init_eff, (boundary_inputs_angle height angle h 90) in E
      by (auto; try lra; rewrite Rtan_py_90; lra).
    injection E as <-. cbn. rewrite Rtan_py_90. apply Rmax_right.
    apply Rmult_le_reg_r with 16331239353195370; [lra|].
    unfold Rdiv. rewrite Rmult_assoc, Rinv_l by lra. simpl in Ph. lra.
  Qed.
  Lemma angle_ignored hp height angle length h a l :
    denotes height h -> 0 <= h -> denotes angle a -> 0 < a <= 90 ->
    denotes length l -> 0 <= l ->
    new_slope hp height angle length = new_slope hp height PNone length.
  Proof.
    intros. rewrite !init_eff.
    rewrite (boundary_inputs_length height angle length h a l); auto.
    rewrite (boundary_inputs_length height PNone length h a l); auto.
  Qed.
End C05.

(** ** C06 *)
Section C06.
  Context {EN : Env}.
  Notation stR := (st R).
  Lemma with_refs_err l (m : M stR unit) s e s' :
    (refs_ok s l -> m s = (Err e, s') -> s' = s) ->
    with_refs l m s = (Err e, s') -> s' = s.
  Proof.
    intros H. unfold with_refs. msteps.
    destruct (forallb (ref_exists (fst s)) l) eqn:E.
    - apply H. apply Forall_forall. intros r Hr. now apply (proj1 (forallb_forall _ _) E).
    - unfold mraise. intros Q. now injection Q.
  Qed.
  (** the editing calls that are atomic *)
  Definition atomic_edit (o : op R) : bool :=
    match o with
    | BoundaryOpts _ _ | SetMaterials _ | Analyse _ | AnalyseDynamic _ => false
    | _ => true
    end.
  Lemma rejected_unchanged (s : stR) o e s' :
    reachable s -> atomic_edit o = true -> exec o s = (Err e, s') -> s' = s.
  Proof.
    intros Hr Ha. pose proof (reachable_inv s Hr) as I. pose proof I as (C & U & L).
    destruct o; try discriminate Ha; cbn [exec].
    - unfold alloc. msteps. destruct (new_material _ _ _ _ _ _); intros Q; [discriminate|].
      now injection Q.
    - unfold alloc. msteps. destruct (new_udl _ _ _ _ _); intros Q; [discriminate|].
      now injection Q.
    - unfold alloc. msteps. destruct (new_lload _ _ _ _); intros Q; [discriminate|].
      now injection Q.
    - intros E. destruct (inv_set_boundary _ _ _ _ C _ _ E) as [(e' & _ & ->)|[Q _]]; auto.
      discriminate.
    - unfold set_water_table, remove_water_table. destruct depth; cbn [is_none]; msteps;
        repeat (match goal with |- context [match ?x with Ok _ => _ | Err _ => _ end] =>
                destruct x end; msteps); cbn; intros Q; try discriminate; now injection Q.
    - unfold remove_water_table. msteps. cbn. intros Q; discriminate Q.
    - rewrite water_options_eff. destruct auto; [discriminate|].
      destruct (rbind _ _); intros Q; [discriminate|now injection Q].
    - apply with_refs_err. intros HR E.
      destruct (inv_set_udls l s C L HR) as (s1 & Q & _). congruence.
    - apply with_refs_err. intros HR E.
      destruct (inv_remove_udls l all s I (refs_udls _ _ HR)) as (s1 & Q & _). congruence.
    - apply with_refs_err. intros HR E.
      destruct (inv_set_lls l s C U HR) as (s1 & Q & _). congruence.
    - apply with_refs_err. intros HR E.
      destruct (inv_remove_lls l all s I (refs_lls _ _ HR)) as (s1 & Q & _). congruence.
    - apply with_refs_err. intros HR. rewrite remove_material_eff.
      destruct (removal_depth _ m depth); intros Q; [discriminate|now injection Q].
    - rewrite analysis_options_eff. intros Q; discriminate Q.
    - rewrite set_limits_eff. destruct (limits_result _ _ _ _ _ _); intros Q; [discriminate|now injection Q].
    - destruct (inv_remove_limits s I) as (s1 & -> & _). intros Q; discriminate Q.
    - unfold add_single_entry_exit_plane. msteps.
      destruct (match external_y _ _ with Some _ => _ | None => _ end); intros Q; [discriminate|now injection Q].
    - unfold add_single_circular_plane. msteps.
      destruct (circle_external _ _ _ _) as [il|]; [|intros Q; now injection Q].
      destruct (first_two il) as [[a b]|]; intros Q; discriminate Q.
    - intros Q; discriminate Q.
  Qed.
End C06.

(** ** C07 *)
(** the four numbers that decide the cross-section *)
Definition dims : Type := (R * R * R * R)%type.    (* height, length, MIN_EXT_H, MIN_EXT_L *)
(** what one accepted geometry call does to them *)
Inductive gives : op R -> dims -> dims -> Prop :=
| gives_boundary height angle length h l a x mh ml h0 l0 :
    denotes height h ->
    ((denotes length x /\ l = Rmax x (1 / 1000)) \/
     (length = PNone /\ denotes angle a /\
      l = Rmax (h / Rtan_py (a * (PI / 180))) (1 / 1000))) ->
    gives (SetBoundary height angle length) (h0, l0, mh, ml) (h, l, mh, ml)
| gives_options vl vh h l mh ml mh' ml' :
    ((falsy vh /\ mh' = mh) \/ (denotes vh mh' /\ mh' <> 0)) ->
    ((falsy vl /\ ml' = ml) \/ (denotes vl ml' /\ ml' <> 0)) ->
    gives (BoundaryOpts vl vh) (h, l, mh, ml) (h, l, mh', ml').
Inductive gives_all : list (op R) -> dims -> dims -> Prop :=
| gives_nil d : gives_all [] d d
| gives_cons o l d d' d'' : gives o d d' -> gives_all l d' d'' -> gives_all (o :: l) d d''.

Section C07.
  Context {EN : Env}.
  Notation stR := (st R).
  (** a run in which every call is accepted *)
  Inductive accepted : stR -> list (op R) -> stR -> Prop :=
  | acc_nil s : accepted s [] s
  | acc_cons s o l s' s'' :
      exec o s = (Ok tt, s') -> accepted s' l s'' -> accepted s (o :: l) s''.

  Definition current (d : dims) (s : stR) : Prop :=
    let '(h, l, mh, ml) := d in
    Inv s /\ s_min_ext_h (snd s) = mh /\ s_min_ext_l (snd s) = ml /\
    s_geom (snd s) = geom_of h l mh ml.

  Lemma boundary_inputs_ok height angle length hh ll :
    boundary_inputs height angle length = Ok (hh, ll) ->
    denotes height hh /\
    ((exists x, denotes length x /\ ll = Rmax x (1 / 1000)) \/
     (length = PNone /\ exists a, denotes angle a /\
        ll = Rmax (hh / Rtan_py (a * (PI / 180))) (1 / 1000))).
  Proof.
    unfold boundary_inputs.
    destruct (if is_none height then Ok tt else _); cbn [rbind]; [|discriminate].
    destruct (if is_none angle then Ok tt else _); cbn [rbind]; [|discriminate].
    destruct (if is_none length then Ok tt else _); cbn [rbind]; [|discriminate].
    destruct (is_none length) eqn:El.
    - destruct (negb (truthy angle)); cbn [rbind]; [discriminate|].
      destruct (as_num height) as [h|] eqn:Eh; cbn [rbind]; [|discriminate].
      destruct (as_num angle) as [an|] eqn:Ea; cbn [rbind]; [|discriminate].
      unfold pydiv, nradians. unR. destruct (Reqb _ 0); cbn [rbind]; [discriminate|].
      unR. intros Q; injection Q as <- <-. split; [now apply denotes_as_num|].
      right. split; [destruct length; auto; discriminate|]. exists an.
      split; [now apply denotes_as_num | reflexivity].
    - destruct (as_num length) as [x|] eqn:Ex; cbn [rbind]; [|discriminate].
      destruct (as_num height) as [h|] eqn:Eh; cbn [rbind]; [|discriminate].
      unR. intros Q; injection Q as <- <-. split; [now apply denotes_as_num|].
      left. exists x. split; [now apply denotes_as_num | reflexivity].
  Qed.
  Lemma opt_dim_ok v o : opt_dim v = Ok o ->
    match o with None => falsy v | Some x => denotes v x /\ x <> 0 end.
  Proof.
    intros H. pose proof H as H'. unfold opt_dim in H.
    destruct (truthy v) eqn:Et.
    - destruct (assert_strictly_positive_number v); cbn [rbind] in H; [|discriminate].
      destruct (as_num v) as [t|] eqn:Ea; cbn [rbind] in H; [|discriminate].
      injection H as <-. apply opt_dim_pos in H'. split; [now apply denotes_as_num | lra].
    - injection H as <-. now apply falsy_truthy.
  Qed.

  Lemma gives_step o d d' (s s' : stR) :
    gives o d d' -> current d s -> exec o s = (Ok tt, s') -> current d' s'.
  Proof.
    intros G Cu E. pose proof Cu as Cu'. destruct G as [height angle length h l a x mh ml h0 l0 Dh Dl
                               | vl vh h l mh ml mh' ml' Hh Hl];
      destruct Cu as (I & Emh & Eml & Eg); cbn [exec] in E.
    - pose proof I as (C & _ & _).
      destruct (inv_set_boundary _ _ _ _ C _ _ E) as [(e & Q & _)|[_ I']]; [discriminate|].
      rewrite set_external_boundary_eff in E.
      destruct (boundary_inputs height angle length) as [[hh ll]|] eqn:B; [|discriminate].
      injection E as <-. unfold current. split; [exact I'|]. cbn.
      split; [exact Emh|]. split; [exact Eml|].
      apply boundary_inputs_ok in B. destruct B as [Dh' B].
      pose proof (denotes_fun _ _ _ Dh' Dh) as Q0. subst hh mh ml.
      destruct Dl as [[D1 ->]|(-> & Da & ->)]; destruct B as [(y & D2 & ->)|(Q & y & D2 & ->)].
      + now rewrite (denotes_fun _ _ _ D2 D1).
      + subst. contradiction.
      + contradiction.
      + now rewrite (denotes_fun _ _ _ D2 Da).
    - pose proof I as (C & _ & _).
      destruct (inv_update_boundary _ _ _ C _ _ E) as [[_ I']|(e & Q & _)]; [|discriminate].
      pose proof C as C'. destruct C'. rewrite update_boundary_eff in E by assumption.
      destruct (opt_dim vh) as [oh|] eqn:Oh; [|discriminate].
      destruct (opt_dim vl) as [ol|] eqn:Ol; [|discriminate].
      injection E as <-. apply opt_dim_ok in Oh, Ol.
      assert (A1 : s_min_ext_h (upd_dim set_s_min_ext_l ol (upd_dim set_s_min_ext_h oh (snd s))) = mh').
      { assert (s_min_ext_h (upd_dim set_s_min_ext_h oh (snd s)) = mh').
        { destruct oh as [x|]; cbn.
          - destruct Oh as [D N]. destruct Hh as [[F _]|[D' _]]; [|eapply denotes_fun; eauto].
            destruct F as [->|[->|F]]; try contradiction. elim N. eapply denotes_fun; eauto.
          - destruct Hh as [[_ ->]|[D' N]]; auto.
            destruct Oh as [->|[->|F]]; try contradiction. elim N. eapply denotes_fun; eauto. }
        destruct ol; auto. }
      assert (A2 : s_min_ext_l (upd_dim set_s_min_ext_l ol (upd_dim set_s_min_ext_h oh (snd s))) = ml').
      { destruct ol as [x|]; cbn.
        - destruct Ol as [D N]. destruct Hl as [[F _]|[D' _]]; [|eapply denotes_fun; eauto].
          destruct F as [->|[->|F]]; try contradiction. elim N. eapply denotes_fun; eauto.
        - assert (s_min_ext_l (upd_dim set_s_min_ext_h oh (snd s)) = ml) as ->
            by (destruct oh; auto).
          destruct Hl as [[_ ->]|[D' N]]; auto.
          destruct Ol as [->|[->|F]]; try contradiction. elim N. eapply denotes_fun; eauto. }
      unfold current. split; [exact I'|]. cbn. rewrite A1, A2. repeat split; auto.
      rewrite Eg. reflexivity.
  Qed.

  Lemma gives_run o d d' (s s' : stR) :
    gives_all o d d' -> current d s -> accepted s o s' -> current d' s'.
  Proof.
    intros G. revert s. induction G as [d|o l d d' d'' G1 G IH]; intros s Cu A.
    - inversion A; subst. exact Cu.
    - inversion A; subst. eapply IH; [|eassumption]. eapply gives_step; eauto.
  Qed.

  Lemma current_start height angle length s :
    new_slope empty_heap height angle length = Ok s ->
    current (g_height (s_geom (snd s)), g_length (s_geom (snd s)), 6, 10) s.
  Proof.
    intros E. pose proof E as E'. rewrite init_eff in E.
    destruct (boundary_inputs height angle length) as [[hh ll]|]; [|discriminate].
    injection E as <-. split; [|repeat split].
    apply reachable_inv. do 3 eexists. exists [], (started empty_heap (geom_of hh ll 6 10)).
    split; [exact E' | reflexivity].
  Qed.

  Lemma geometry_calls height angle length s ops d s' :
    new_slope empty_heap height angle length = Ok s ->
    gives_all ops (g_height (s_geom (snd s)), g_length (s_geom (snd s)), 6, 10) d ->
    accepted s ops s' ->
    let '(h, l, mh, ml) := d in cross_section h l mh ml (s_geom (snd s')).
  Proof.
    intros E G A. pose proof (gives_run _ _ _ _ _ G (current_start _ _ _ _ E) A) as Cu.
    destruct d as [[[h l] mh] ml]. destruct Cu as (_ & _ & _ & ->). apply geom_of_section.
  Qed.

  (** every accepted geometry call is described by [gives] *)
  Lemma gives_total o d (s s' : stR) :
    match o with SetBoundary _ _ _ | BoundaryOpts _ _ => True | _ => False end ->
    current d s -> exec o s = (Ok tt, s') -> exists d', gives o d d'.
  Proof.
    intros Ho Cu E. destruct d as [[[h l] mh] ml]. destruct Cu as (I & Emh & Eml & Eg).
    destruct o; try contradiction; cbn [exec] in E.
    - rewrite set_external_boundary_eff in E.
      destruct (boundary_inputs height angle length) as [[hh ll]|] eqn:B; [|discriminate].
      apply boundary_inputs_ok in B. destruct B as [Dh [(x & D & ->)|(-> & a & D & ->)]].
      + eexists. apply (gives_boundary height angle length hh (Rmax x (1 / 1000)) 0 x mh ml h l Dh). left. eauto.
      + eexists. apply (gives_boundary height angle PNone hh
          (Rmax (hh / Rtan_py (a * (PI / 180))) (1 / 1000)) a 0 mh ml h l Dh). right. eauto.
    - destruct I as (C & _ & _). destruct C. rewrite update_boundary_eff in E by assumption.
      destruct (opt_dim min_ext_h) as [oh|] eqn:Oh; [|discriminate].
      destruct (opt_dim min_ext_l) as [ol|] eqn:Ol; [|discriminate].
      apply opt_dim_ok in Oh, Ol.
      exists (h, l, match oh with Some x => x | None => mh end,
              match ol with Some x => x | None => ml end).
      constructor; [destruct oh | destruct ol]; auto.
  Qed.

  Lemma nth_error_ext_eq {A} (l l' : list A) :
    (forall n, nth_error l n = nth_error l' n) -> l = l'.
  Proof.
    revert l'. induction l as [|a l IH]; intros [|b l'] H; auto.
    - specialize (H 0%nat). discriminate.
    - specialize (H 0%nat). discriminate.
    - f_equal.
      + specialize (H 0%nat). cbn in H. congruence.
      + apply IH. intros n. exact (H (S n)).
  Qed.
  Lemma upd_all_idem {A} (f : A -> A) locs l :
    (forall a, f (f a) = f a) -> upd_all f locs (upd_all f locs l) = upd_all f locs l.
  Proof.
    intros Hf. apply nth_error_ext_eq. intros n. rewrite !nth_error_upd_all by auto.
    destruct (mem_nat n locs); auto. destruct (nth_error l n); cbn; auto. now rewrite Hf.
  Qed.
  Lemma rebuilt_twice g (s : stR) : rebuilt g (rebuilt g s) = rebuilt g s.
  Proof.
    unfold rebuilt. cbn -[upd_all]. rewrite !upd_all_idem; auto.
  Qed.

  Lemma geometry_repeat o (s s' : stR) :
    match o with SetBoundary _ _ _ | BoundaryOpts _ _ => True | _ => False end ->
    reachable s -> exec o s = (Ok tt, s') -> exec o s' = (Ok tt, s').
  Proof.
    intros Ho Hr E. destruct (reachable_inv s Hr) as (C & _ & _).
    destruct o; try contradiction; cbn [exec] in *.
    - rewrite set_external_boundary_eff in E |- *.
      destruct (boundary_inputs height angle length) as [[hh ll]|]; [|discriminate].
      injection E as <-. cbn [rebuilt snd s_min_ext_h s_min_ext_l].
      f_equal. apply rebuilt_twice.
    - destruct (inv_update_boundary _ _ _ C _ _ E) as [[_ (C' & _)]|(e & Q & _)]; [|discriminate].
      destruct C, C'. rewrite update_boundary_eff in E |- * by assumption.
      destruct (opt_dim min_ext_h) as [oh|]; [|discriminate].
      destruct (opt_dim min_ext_l) as [ol|]; [|discriminate].
      injection E as <-.
      destruct oh, ol; apply (f_equal (pair (Ok tt))); exact (rebuilt_twice _ _).
  Qed.
End C07.

(** ** C08 *)
Lemma y_defined h l mh ml g x :
  0 <= h -> 1 / 1000 <= l -> cross_section h l mh ml g ->
  (exists y, external_y g x = Some y) <-> 0 <= x <= g_ext_l g.
Proof.
  intros Hh Hl CS. unfold external_y. unR. split.
  - intros [y E]. destruct (Rltb x 0) eqn:A; [discriminate|].
    destruct (Rltb (g_ext_l g) x) eqn:B; [discriminate|]. rbool. lra.
  - intros [A B]. rewrite (proj2 (Rltb_false x 0)), (proj2 (Rltb_false _ x)) by lra.
    cbn [orb]. rcase; eauto.
Qed.
(** the documented ground surface *)
Lemma y_value h l mh ml g x y :
  0 <= h -> 1 / 1000 <= l -> cross_section h l mh ml g ->
  external_y g x = Some y -> y = surface g x.
Proof.
  intros Hh Hl CS. destruct (section_facts _ _ _ _ _ Hh Hl CS) as
    (F1 & F2 & F3 & F4 & F5 & F6 & F7 & F8 & F9 & F10 & F11 & F12 & F13 & F14).
  unfold external_y, surface, clamp. unR. destruct CS.
  destruct (_ || _); [discriminate|].
  destruct (Rleb x (fst (g_top g))) eqn:A; rbool.
  { intros Q; injection Q as <-. rewrite Rmin_right by lra. rewrite Rmax_left by lra. lra. }
  destruct (Rleb (fst (g_bot g)) x) eqn:B; rbool; intros Q; injection Q as <-.
  - rewrite Rmin_left by lra. rewrite Rmax_right by lra. rewrite F14. rewrite F2, F1.
    field. lra.
  - rewrite Rmin_right by lra. rewrite Rmax_right by lra. lra.
Qed.
